(* SPEC: which sources scripts/srclist.py is to list, and how. *)
From Coq Require Import Reals Ascii.
From Verif Require Import Base ScriptModel ScriptSpec SrlModel. (* models for strings and sources only *)
Open Scope R_scope.

(* x comes strictly after lo and before hi on the way round the circle from lo upwards; from lo to itself is a whole turn *)
Definition on_arc (lo hi x : R) : Prop :=
  exists w t, 0 < w <= 2 * PI /\ 0 < t < w /\ (exists z, hi = lo + w + 2 * PI * IZR z) /\ exists z, x = lo + t + 2 * PI * IZR z.
(* the declinations between the two, or outside of them when the first is not the smaller *)
Definition in_dec (a b x : R) : Prop := (a < b -> a < x < b) /\ (b <= a -> a < x \/ x < b).
Definition turn (x : R) : Prop := 0 <= x < 2 * PI.
(* the sources that are to be listed *)
Record wanted (sepn : source -> source -> R) (dated : bool) (cat xcat ccat : list (str * source)) (sep : option R) (ra dec : option (R * R)) (n : str) (s : source) : Prop := {
  w_in : In (n, s) cat;
  w_fixed : dated = false -> s_fixed s = true;
  w_not : forall s', In (n, s') xcat -> dated = false /\ s_fixed s' = false;
  w_sep : forall d, sep = Some d -> exists n' c, In (n', c) ccat /\ (dated = false -> s_fixed c = true) /\ sepn s c * 180 / PI <= d;
  w_ra : forall lo hi, ra = Some (lo, hi) -> on_arc lo hi (s_ra s);
  w_dec : forall lo hi, dec = Some (lo, hi) -> in_dec lo hi (s_dec s) }.
(* before in the dictionary: the first character that differs decides, and an end comes first *)
Inductive before : str -> str -> Prop :=
| before_end c r : before [] (c :: r)
| before_char c d r s : (nat_of_ascii c < nat_of_ascii d)%nat -> before (c :: r) (d :: s)
| before_rest c r s : before r s -> before (c :: r) (c :: s).
Inductive ordered : list str -> Prop :=
| ordered_nil : ordered []
| ordered_cons a l : (forall b, In b l -> before a b) -> ordered l -> ordered (a :: l).
(* names with a text between any two *)
Inductive divided (d : str) : list str -> str -> Prop :=
| divided_none : divided d [] []
| divided_one a : divided d [a] a
| divided_more a b l t : divided d (b :: l) t -> divided d (a :: b :: l) (a ++ d ++ t).
