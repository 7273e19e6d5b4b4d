(** Opposite numbers of IEEE arithmetic *)
From Coq Require Import SpecFloat.
From Verif Require Import Num ModelVertex.

(** of the same size and of different sign; zeros count as opposite whatever their signs; "not a number" is opposite to itself *)
Definition opposite (x y : spec_float) : Prop := y = SFopp x \/ exists s t, x = S754_zero s /\ y = S754_zero t.
Definition opposite3 (a b : vec3 spec_float) : Prop := opposite (vx a) (vx b) /\ opposite (vy a) (vy b) /\ opposite (vz a) (vz b).
