(* What rotations and coordinates are. *)
From Coq Require Import Reals.
From Verif Require Import Base GeoModel.
Open Scope R_scope.
Definition ident : mat := ((1, 0, 0), (0, 1, 0), (0, 0, 1)).
Definition vadd (a b : vec) : vec := let '(a1, a2, a3) := a in let '(b1, b2, b3) := b in (a1 + b1, a2 + b2, a3 + b3).
Definition vscale (k : R) (a : vec) : vec := let '(a1, a2, a3) := a in (k * a1, k * a2, k * a3).
Definition cross (a b : vec) : vec :=
  let '(a1, a2, a3) := a in let '(b1, b2, b3) := b in (a2 * b3 - a3 * b2, a3 * b1 - a1 * b3, a1 * b2 - a2 * b1).
Definition unit (v : vec) : Prop := dot v v = 1.
Definition norm (v : vec) : R := sqrt (dot v v).
(* a proper rotation keeps scalar products and has determinant 1 *)
Definition rotation (m : mat) : Prop := (forall v w, dot (mv m v) (mv m w) = dot v w) /\ det m = 1.
(* turning v by ang around the unit axis k, right-handed (Rodrigues) *)
Definition turn (ang : R) (k v : vec) : vec :=
  vadd (vadd (vscale (cos ang) v) (vscale (sin ang) (cross k v))) (vscale (dot k v * (1 - cos ang)) k).
