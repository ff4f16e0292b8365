(* Two-dimensional Gaussians: aipy/twodgauss.py. An image is a number of rows, a number of columns
   and a function from row and column to a real number; pixels are finite. *)
From Coq Require Import Reals.
From Verif Require Import Base CleanSpec.
Open Scope R_scope.

(* np.argmax: the first of the largest *)
Definition argmax (f : nat -> R) (n : nat) : nat :=
  fold_left (fun best i => if Rlt_dec (f best) (f i) then i else best) (seq 1 (n - 1)) O.
(* data.ravel() *)
Definition ravel (n m : nat) (d : nat -> nat -> R) : list R := flat_map (fun r => map (d r) (seq 0 m)) (seq 0 n).
(* np.median: sort, and take the mean of the two in the middle *)
Fixpoint insert (x : R) (l : list R) : list R :=
  match l with [] => [x] | y :: r => if Rle_dec x y then x :: l else y :: insert x r end.
Definition sort (l : list R) : list R := fold_right insert [] l.
Definition median (l : list R) : R :=
  let s := sort l in (nth ((length l - 1) / 2) s 0 + nth (length l / 2) s 0) / 2.
Definition maximum (l : list R) : R := match l with [] => 0 | x :: r => fold_left Rmax r x end.

(* twodgauss.py:9-27. np.indices gives the row number first, so Y is the row and X the column. An
   empty image has no argmax (ValueError); a row or column of zeros makes its width NaN, and that
   is the ValueError of line 23. Where total is 0 every row is zero. *)
Definition moments (n m : nat) (d : nat -> nat -> R) : res (list R) :=
  if ((n =? 0) || (m =? 0))%nat then Err
  else
    let total := rsum (seq 0 n) (fun r => rsum (seq 0 m) (fun c => Rabs (d r c))) in
    let y := argmax (fun r => rsum (seq 0 m) (fun c => INR c * Rabs (d r c)) / total) n in
    let x := argmax (fun c => rsum (seq 0 n) (fun r => INR r * Rabs (d r c)) / total) m in
    let scol := rsum (seq 0 m) (fun c => Rabs (d y c)) in
    let srow := rsum (seq 0 n) (fun r => Rabs (d r x)) in
    if Req_EM_T scol 0 then Err
    else if Req_EM_T srow 0 then Err
    else
      let width_x := sqrt (rsum (seq 0 m) (fun c => Rabs ((INR c - INR y) * d y c)) / scol) in
      let width_y := sqrt (rsum (seq 0 n) (fun r => Rabs ((INR r - INR x) * d r x)) / srow) in
      let height := median (ravel n m d) in
      let amplitude := maximum (ravel n m d) - height in
      Ok [height; amplitude; INR x; INR y; width_x; width_y].

(* twodgauss.py:46-48: ((c - x) / w)**2; a division by zero is infinite, or NaN at the centre *)
Inductive term := Fin (v : R) | Inf | NaN.
Definition squared (c x w : R) : term :=
  if Req_EM_T w 0 then if Req_EM_T c x then NaN else Inf else Fin (((c - x) / w) * ((c - x) / w)).
(* twodgauss.py:43-49; None is NaN *)
Definition rotgauss (amplitude cen_x cen_y width_x width_y x y : R) : option R :=
  match squared cen_x x width_x, squared cen_y y width_y with
  | NaN, _ | _, NaN => None
  | Inf, _ | _, Inf => Some (amplitude * 0)
  | Fin a, Fin b => Some (amplitude * exp (- (a + b) / 2))
  end.
(* twodgauss.py:29-54: too few parameters are an IndexError, too many an error as well; the value
   at row r, column c *)
Definition twodgaussian (inpars : list R) : res (nat -> nat -> option R) :=
  match inpars with
  | [_; amplitude; center_y; center_x; width_x; width_y] =>
      Ok (fun r c => rotgauss amplitude center_x center_y width_x width_y (INR r) (INR c))
  | _ => Err
  end.
