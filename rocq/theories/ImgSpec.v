(* What the imaging helpers promise, without reference to how they work. *)
From Coq Require Import Reals Ascii Permutation Sorted.
From Verif Require Import Base CleanSpec GridSpec.
Open Scope nat_scope.

(* ---- word wrapping ---- *)
Definition sp : ascii := " "%char.
Fixpoint intercalate (ws : list (list ascii)) : list ascii :=
  match ws with [] => [] | [w] => w | w :: r => w ++ sp :: intercalate r end.
(* ws are the words of s *)
Definition words_of (s : list ascii) (ws : list (list ascii)) : Prop :=
  ws <> [] /\ intercalate ws = s /\ Forall (fun w => ~ In sp w) ws.
(* a word cut into pieces of at most n characters *)
Definition cut (n : nat) (w : list ascii) (ps : list (list ascii)) : Prop :=
  concat ps = w /\ Forall (fun p => 0 < length p <= n) ps /\ (0 < length w <= n -> ps = [w]).
Definition spaced (ws : list (list ascii)) : list ascii := flat_map (fun w => sp :: w) ws.
Definition later_line (lead : list ascii) (g : list (list ascii)) : list ascii := lead ++ hd [] g ++ spaced (tl g).
(* the words, in order, on lines: the first begins with lead1, the others with lead2; a line
   is broken only where the next word does not fit *)
Definition laid_out (width : nat) (lead1 lead2 : list ascii) (words lines : list (list ascii)) : Prop :=
  exists first rest, words = first ++ concat rest /\ Forall (fun g => g <> []) rest /\
  lines = (lead1 ++ spaced first) :: map (later_line lead2) rest /\
  Forall2 (fun line g => width <= length (line ++ sp :: hd [] g)) (removelast lines) rest.

(* ---- matrices as lists of rows ---- *)
Definition rect {A} (s0 s1 : nat) (a : list (list A)) : Prop := length a = s0 /\ Forall (fun r => length r = s1) a.
Definition at2 {A} (a : list (list A)) (i j : nat) : option A := match nth_error a i with Some r => nth_error r j | None => None end.

(* ---- visibilities ---- *)
Open Scope R_scope.
(* a square uv matrix (cell (a, b) at a*n+b) equal to the conjugate of its mirror image *)
Definition hermitian (n : Z) (m : Z -> R * R) : Prop :=
  forall a b, (0 <= a < n)%Z -> (0 <= b < n)%Z -> m ((- a) mod n * n + (- b) mod n)%Z = cconj (m (a * n + b)%Z).
(* np.argsort: the permutation of the positions that sorts the keys *)
Definition argsorts (keys : list R) (order : list nat) : Prop :=
  Permutation order (seq 0 (length keys)) /\ StronglySorted Rle (map (fun i => nth i keys 0) order).
(* signed square root *)
Definition signed_sqrt (w s : R) : Prop := (0 <= w -> 0 <= s /\ s * s = w) /\ (w < 0 -> s < 0 /\ s * s = - w).
(* ---- gridding in planes of constant w ---- *)
Definition mean (l : list R) : R := fold_right Rplus 0 l / INR (length l).
(* where put writes the sample (u, v, w) of an image of resolution res, and where get reads it *)
Definition put_at (res : R) (p : R * R * R) : R * R := let '(u, v, _) := p in (- v / res, u / res).
Definition get_at (res : R) (p : R * R * R) : R * R := let '(u, v, _) := p in (u / res, - v / res).
Definition footprint (W : R -> list Z) (n : Z) (f : R * R) (a b : Z) : R := foot2 n (W (fst f)) (W (snd f)) (fst f) (snd f) a b.
(* g holds the samples numbered in c, and nothing else *)
Definition gridded (W : R -> list Z) (n : Z) (res : R) (uvw : list (R * R * R)) (data : list (R * R)) (c : list nat) (g : Z -> R * R) : Prop :=
  forall a b, (0 <= a < n)%Z -> (0 <= b < n)%Z ->
  g (a * n + b)%Z = csum c (fun k => (footprint W n (put_at res (nth k uvw (0, 0, 0))) a b * fst (nth k data (0, 0)),
                                      footprint W n (put_at res (nth k uvw (0, 0, 0))) a b * snd (nth k data (0, 0)))).
(* the interpolated value of m at a sample's coordinates *)
Definition interpolated (W : R -> list Z) (n : Z) (res : R) (m : Z -> R * R) (p : R * R * R) : R * R :=
  let f := get_at res p in
  let t := total2 (W (fst f)) (W (snd f)) (fst f) (snd f) in
  let s := csum (ring n) (fun a => csum (ring n) (fun b => (footprint W n f a b * fst (m (a * n + b)%Z), footprint W n f a b * snd (m (a * n + b)%Z)))) in
  (/ t * fst s, / t * snd s).
(* x is the quotient a / b; None stands for nan *)
Definition is_quotient (a b : R * R) (x : option (R * R)) : Prop :=
  match x with None => b = (0, 0) | Some z => b <> (0, 0) /\ (fst z * fst b - snd z * snd b, fst z * snd b + snd z * fst b) = a end.
(* cs splits the samples into consecutive runs by w, each spanning less than wres of signed sqrt w *)
Definition w_planes (wres : R) (ws : list R) (cs : list (list nat)) : Prop :=
  Permutation (concat cs) (seq 0 (length ws)) /\ Forall (fun c => c <> []) cs /\
  StronglySorted Rle (map (fun k => nth k ws 0) (concat cs)) /\
  Forall (fun c => forall p q s t, In p c -> In q c -> signed_sqrt (nth p ws 0) s -> signed_sqrt (nth q ws 0) t -> s - t < wres) cs.
