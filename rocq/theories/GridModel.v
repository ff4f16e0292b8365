(* add2array (aipy/utils/utils.cpp) and the gridding loops (aipy/_dsp/grid/grid.c).
   Simplifications: an array of add2array is a function from index vectors to cells, so
   strides and memory are not modelled (arrays with overlapping cells are outside); its
   element type and addition are parameters, so what is proved holds for float addition
   too. The gridding loops work on exact reals (no float rounding); their buffers are flat
   functions from offsets to values, an offset outside the buffer is Err. *)
From Coq Require Import Reals.
From Verif Require Import Base CleanModel.
Open Scope Z_scope.

(* ---------------- add2array ---------------- *)
Section Add.
Context {T : Type}.
Variable add : T -> T -> T.
(* C conversion of a long to an int: utils.cpp:63, 64 *)
Definition to_int (v : Z) : Z := (v + 2147483648) mod 4294967296 - 2147483648.
(* utils.cpp:61-67, 78-84: one index vector; None is the `return -1` *)
Fixpoint locate (shape index : list Z) : option (list Z) :=
  match shape with
  | [] => Some []
  | d :: shape =>
      let v := to_int (nth 0 index 0) in
      let v := if v <? 0 then to_int (v + d) else v in
      if (v <? 0) || (d <=? v) then None
      else match locate shape (tl index) with None => None | Some c => Some (v :: c) end
  end.
Definition cell_eqb (a b : list Z) : bool := if list_eq_dec Z.eq_dec a b then true else false.
(* utils.cpp:56-71, 73-88 addloop/caddloop: true if 0 was returned; the additions made before
   an invalid index stay *)
Fixpoint addloop (shape : list Z) (a : list Z -> T) (rows : list (list Z * T)) : bool * (list Z -> T) :=
  match rows with
  | [] => (true, a)
  | (index, x) :: rows =>
      match locate shape index with
      | None => (false, a)
      | Some c => addloop shape (fun k => if cell_eqb c k then add (a k) x else a k) rows
      end
  end.
(* utils.cpp:92-160 add2array: None is ValueError raised before the loop (index and data
   lengths, row width; the checks on ranks and element types are taken to pass), otherwise
   whether the call returned normally and the array afterwards. *)
Definition add2array (shape : list Z) (a : list Z -> T) (ind : list (list Z)) (data : list T) : option (bool * (list Z -> T)) :=
  if Nat.eqb (length ind) (length data) && forallb (fun r => Nat.eqb (length r) (length shape)) ind
  then Some (addloop shape a (combine ind data)) else None.
End Add.

(* ---------------- gridding ---------------- *)
Open Scope R_scope.
Definition floorR (x : R) : Z := (up x - 1)%Z.
Definition ceilR (x : R) : Z := (- floorR (- x))%Z.
(* for (j = lo; j <= hi; j++) *)
Definition zrange (lo hi : Z) : list Z := map (fun k => (lo + Z.of_nat k)%Z) (seq 0 (Z.to_nat (hi - lo + 1))).
(* grid.c:10, 30, 51, 56, 80, 85: the loop bounds; footprint/2 is integer division *)
Definition taps (find : R) (footprint : Z) : list Z :=
  zrange (floorR (find - IZR (Z.quot footprint 2))) (ceilR (find + IZR (Z.quot footprint 2))).
(* grid.c:12-13 and copies: C remainder, then made non-negative *)
Definition jmod (j n : Z) : Z := let m := Z.rem j n in if (m <? 0)%Z then (m + n)%Z else m.
(* grid.c:14, 34; 60, 89 *)
Definition wgt1 (d : R) : R := 0.79788456080286541 * exp (- 2 * (d * d)).
Definition wgt2 (d1 d2 : R) : R := 0.63661977236758149 * exp (- 2 * (d1 * d1 + d2 * d2)).

Definition upd {V} (b : Z -> V) (i : Z) (v : V) : Z -> V := fun k => if (i =? k)%Z then v else b k.
Definition inb (len i : Z) : bool := ((0 <=? i) && (i <? len))%Z.

(* buf[i] += w * d *)
Definition put1 (len : Z) (i : Z) (w : R) (d : C) (b : Z -> C) : res (Z -> C) :=
  if inb len i then Ok (upd b i (cadd (b i) (cscale w d))) else Err.
Definition foldr_ok {A S} (f : A -> S -> res S) (l : list A) (s : S) : res S :=
  fold_left (fun r a => bind r (f a)) l (Ok s).

(* grid.c:21-39 grid1D_c (grid1D_r, 3-19, is the same on real data) *)
Definition grid1D (n footprint : Z) (samples : list (R * C)) (buf : Z -> C) : res (Z -> C) :=
  foldr_ok (fun s b => foldr_ok (fun j b => put1 n (jmod j n) (wgt1 (fst s - IZR j)) (snd s) b) (taps (fst s) footprint) b) samples buf.
(* grid.c:41-68 grid2D_c: the row stride is buflen1 *)
Definition grid2D (n1 n2 footprint : Z) (samples : list (R * R * C)) (buf : Z -> C) : res (Z -> C) :=
  foldr_ok (fun s b => let '(f1, f2, d) := s in
    foldr_ok (fun j1 b => foldr_ok (fun j2 b =>
      put1 (n1 * n2) (jmod j1 n1 * n1 + jmod j2 n2) (wgt2 (f1 - IZR j1) (f2 - IZR j2)) d b)
      (taps f2 footprint) b) (taps f1 footprint) b) samples buf.
(* grid.c:70-98 degrid2D_c: one sample; d is what data[i] held before the call *)
Definition degrid_tap (len i : Z) (w : R) (buf : Z -> C) (acc : C * R) : res (C * R) :=
  if inb len i then Ok (cadd (fst acc) (cscale w (buf i)), snd acc + w) else Err.
Definition degrid1 (n1 n2 footprint : Z) (buf : Z -> C) (f1 f2 : R) (d : C) : res C :=
  bind (foldr_ok (fun j1 a => foldr_ok (fun j2 a =>
          degrid_tap (n1 * n2) (jmod j1 n1 * n1 + jmod j2 n2) (wgt2 (f1 - IZR j1) (f2 - IZR j2)) buf a)
          (taps f2 footprint) a) (taps f1 footprint) (d, 0))
       (fun '(d, tot) => Ok (cscale (/ tot) d)).
Fixpoint degrid2D (n1 n2 footprint : Z) (buf : Z -> C) (samples : list (R * R * C)) : res (list C) :=
  match samples with
  | [] => Ok []
  | (f1, f2, d) :: r => bind (degrid1 n1 n2 footprint buf f1 f2 d) (fun v => bind (degrid2D n1 n2 footprint buf r) (fun vs => Ok (v :: vs)))
  end.
