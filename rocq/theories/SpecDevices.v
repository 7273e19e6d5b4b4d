(** What a list of devices says: vocabulary. *)
From Coq Require Import Ascii String List NArith ZArith.
From Verif Require Import ModelText ModelDevices.
Import ListNotations.
Set Implicit Arguments.

(** the words with the separator between them *)
Fixpoint join (c : ascii) (ws : list text) : text :=
  match ws with [] => [] | [w] => w | w :: r => w ++ c :: join c r end.
(** [s] consists of these words *)
Definition words_of (c : ascii) (s : text) (ws : list text) : Prop := ws <> [] /\ (forall w, In w ws -> ~ In c w) /\ s = join c ws.

(** a list of CUDA devices: numbers between commas, empty words do not count *)
Definition cuda_list (count : Z) (s : text) (ids : list Z) : Prop :=
  exists ws, words_of ","%char s ws /\ ids <> [] /\
    Forall2 (fun w i => to_int w = Some i /\ (0 <= i < count)%Z) (filter (fun w => negb (is_nil w)) ws) ids.
(** an entry of a list of OpenCL devices: "platform:device,device,..." *)
Definition opencl_entry (platforms : list nat) (s : text) (g : nat * list nat) : Prop :=
  exists a b ws, words_of ":"%char s [a; b] /\ to_unsigned a = Some (N.of_nat (fst g)) /\ fst g < length platforms /\
    words_of ","%char b ws /\ Forall2 (fun w i => to_unsigned w = Some (N.of_nat i) /\ i < nth (fst g) platforms 0) ws (snd g).
(** the devices of the entries, in order, with a context for each entry *)
Fixpoint devices_from (n : nat) (gs : list (nat * list nat)) : list device :=
  match gs with [] => [] | g :: gs => map (fun i => mkDevice (fst g) i n) (snd g) ++ devices_from (S n) gs end.
