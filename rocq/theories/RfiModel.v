(* Flagging of interference: aipy/rfi.py:41-82. Simplifications: values are exact reals; the
   polynomial fit and the threshold are parameters (scipy and numpy fits); an array is a list; a
   mask is a list of booleans. remove_spikes changes the mask it is given: the mask afterwards is
   returned beside the result. *)
From Coq Require Import Reals.
From Verif Require Import Base CleanModel.
Open Scope R_scope.

Section Rfi.
(* polyfit xs ys and then polyval at x *)
Variable fit : list (nat * R) -> nat -> R.
(* xs.compress(im), data.compress(im) *)
Definition kept (data : list R) (mask : list bool) : list (nat * R) :=
  flat_map (fun '(x, (d, m)) => if negb m then [(x, d)] else []) (combine (seq 0 (length data)) (combine data mask)).
Fixpoint total (l : list R) : R := match l with [] => 0 | x :: r => x + total r end.
(* a.put(ind, 1) *)
Fixpoint put_true (mask : list bool) (i : nat) : list bool :=
  match mask, i with [], _ => [] | _ :: r, O => true :: r | x :: r, S i => x :: put_true r i end.
(* np.where(residual > sig) *)
Definition where_above (sig : R) (res : list R) : list nat :=
  flat_map (fun '(i, r) => if Rltb sig r then [i] else []) (combine (seq 0 (length res)) res).
Definition all_points (data : list R) : list (nat * R) := combine (seq 0 (length data)) data.
(* rfi.py:59-82 remove_spikes with a mask of the size of the data; iter counts down to 0 (a
   negative iter never ends). The fitted polynomial, and the mask afterwards *)
Definition poly_of (data : list R) (mask : list bool) : nat -> R :=
  let pts := kept data mask in match pts with [] => fit (all_points data) | _ => fit pts end.
Definition spikes (data : list R) (mask : list bool) : list nat :=
  let p := poly_of data mask in
  let residual := map (fun '(x, d) => Rabs (d - p x)) (kept data mask) in
  let sig := sqrt (total (map (fun r => r * r) residual) / INR (length residual)) in
  where_above sig residual.
Fixpoint remove_loop (data : list R) (mask : list bool) (iter : nat) : (nat -> R) * list bool :=
  match iter with
  | O => (poly_of data mask, mask)
  | S n => remove_loop data (fold_left put_true (spikes data mask) mask) n
  end.
(* rfi.py:62-64 a missing mask or one of another size is replaced: the caller's is not touched *)
Definition remove_spikes (data : list R) (mask : option (list bool)) (iter : nat) : list R * option (list bool) :=
  let run m := let '(p, m) := remove_loop data m iter in (map p (seq 0 (length data)), m) in
  match mask with
  | Some m => if Nat.eqb (length m) (length data) then let '(r, m) := run m in (r, Some m) else (fst (run (repeat false (length data))), Some m)
  | None => (fst (run (repeat false (length data))), None)
  end.

(* rfi.py:41-57 flag_by_int. A row of the autocorrelation: channels with value and mask;
   np.ma.average over the channels: masked when every channel is *)
Definition row := list (R * bool).
Definition average (r : row) : option R :=
  match flat_map (fun '(v, m) => if negb m then [Rabs v] else []) r with
  | [] => None
  | l => Some (total l / INR (length l))
  end.
Definition ma_mask (l : list (option R)) : list bool := map (fun o => match o with Some _ => false | None => true end) l.
(* numpy leaves the data under a mask in place; what it is does not matter below: 0 *)
Definition ma_data (l : list (option R)) : list R := map (fun o => match o with Some v => v | None => 0 end) l.
(* gen_rfi_thresh on the unmasked values: the upper threshold, None when there is no histogram
   (then filled and >= raise) *)
Variable thresh : list R -> option R.
Definition flag_by_int (auto : list row) (raw : bool) : res (list bool) :=
  let pwr := map average auto in
  let spikey := if raw then pwr
    else let '(smooth, _) := remove_spikes (ma_data pwr) (Some (ma_mask pwr)) 3 in
         map (fun '(p, s) => match p with Some v => Some (Rabs (v - s)) | None => None end) (combine pwr smooth) in
  match thresh (flat_map (fun o => match o with Some v => [v] | None => [] end) spikey) with
  | None => Err
  | Some hi => Ok (map (fun o => match o with Some v => if Rle_dec hi v then true else false | None => if Rle_dec hi hi then true else false end) spikey)
  end.
End Rfi.
