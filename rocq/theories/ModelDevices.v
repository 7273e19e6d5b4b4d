(** The selection of the devices of the GPU engines: nbody/nbody_engine_cuda.cpp:576-616, nbody/nbody_engine_opencl.cpp:329-332 and
    385-502.  Left out: messages, [verbose] and [prof]. *)
From Coq Require Import Ascii String Bool List NArith ZArith.
From Verif Require Import ModelText.
Import ListNotations.
Set Implicit Arguments.

(** QString::toInt(&ok), [None] if not ok *)
Definition to_int (s : text) : option Z :=
  match to_longlong s with
  | Some v => if andb (Z.leb (- 2 ^ 31) v) (Z.leb v (2 ^ 31 - 1)) then Some v else None
  | None => None
  end.
(** QString::toUInt(&ok), [None] if not ok *)
Definition to_unsigned (s : text) : option N :=
  match to_ulonglong s with
  | Some v => if N.ltb v (2 ^ 32) then Some v else None
  | None => None
  end.

(** ** CUDA *)

(** nbody_engine_cuda.cpp:593-612: the loop over the list *)
Fixpoint cuda_ids (device_count : Z) (words : list text) : option (list Z) :=
  match words with
  | [] => Some []
  | w :: words =>
      match to_int w with
      | None => None
      | Some id =>
          if orb (Z.ltb id 0) (Z.leb device_count id) then None
          else match cuda_ids device_count words with
               | None => None
               | Some l => Some (id :: l)
               end
      end
  end.
(** nbody_engine_cuda.cpp:576-616; [device_count] is [None] when cudaGetDeviceCount fails, [ids] is [m_device_ids]; the result is the
    new [m_device_ids] and whether 0 is returned *)
Definition cuda_select (device_count : option Z) (devices : text) (ids : list Z) : list Z * bool :=
  let words := split_skip ","%char devices in
  if is_nil words then (ids, false)
  else match device_count with
       | None => (ids, false)
       | Some n =>
           match cuda_ids n words with
           | None => (ids, false)
           | Some l => (l, true)
           end
       end.

(** ** OpenCL *)

(** a [devctx] (nbody_engine_opencl.cpp:42-110): platform, device, and the number of its context among those made by one call *)
Record device := mkDevice { dv_platform : nat; dv_number : nat; dv_context : nat }.

(** nbody_engine_opencl.cpp:427-443: the numbers of one list; [total] is the size of [all_devices] *)
Fixpoint device_ids (total : nat) (words : list text) : option (list nat) :=
  match words with
  | [] => Some []
  | w :: words =>
      match to_unsigned w with
      | None => None
      | Some id =>
          if N.leb (N.of_nat total) id then None
          else match device_ids total words with
               | None => None
               | Some l => Some (N.to_nat id :: l)
               end
      end
  end.
(** nbody_engine_opencl.cpp:453-463; the constructor of [devctx] throws unless the device [works] *)
Fixpoint add_devices (works : nat -> nat -> bool) (p n : nat) (ids : list nat) (devs : list device) : list device * bool :=
  match ids with
  | [] => (devs, true)
  | i :: ids => if works p i then add_devices works p n ids (devs ++ [mkDevice p i n]) else (devs, false)
  end.
(** nbody_engine_opencl.cpp:385-466, from the entry [n] on; [platforms] are the numbers of devices of each platform *)
Fixpoint opencl_entries (platforms : list nat) (works : nat -> nat -> bool) (n : nat) (entries : list text) (devs : list device)
  : list device * bool :=
  match entries with
  | [] => (devs, true)
  | entry :: entries =>
      match split ":"%char entry with
      | [a; b] =>
          match to_unsigned a with
          | None => (devs, false)
          | Some p =>
              if N.leb (N.of_nat (length platforms)) p then (devs, false)
              else
                match device_ids (nth (N.to_nat p) platforms 0) (split ","%char b) with
                | None => (devs, false)
                | Some ids =>
                    let (devs, good) := add_devices works (N.to_nat p) n ids devs in
                    if good then opencl_entries platforms works (S n) entries devs else (devs, false)
                end
          end
      | _ => (devs, false)
      end
  end.
(** nbody_engine_opencl.cpp:329-332 *)
Definition is_power_of_two (v : N) : bool := andb (N.ltb 0 v) (N.eqb (N.land v (v - 1)) 0).
(** nbody_engine_opencl.cpp:468-502; [st] is [m_devices] and [m_all_in_same_context] *)
Definition opencl_select (platforms : list nat) (works : nat -> nat -> bool) (devices : text) (st : list device * bool)
  : (list device * bool) * bool :=
  let entries := split ";"%char devices in
  let (devs, good) := opencl_entries platforms works 0 entries (fst st) in
  if negb good then ((devs, snd st), false)
  else if negb (is_power_of_two (N.of_nat (length devs))) then ((devs, snd st), false)
  else ((devs, Nat.eqb (length entries) 1), true).
