(* scripts/apply_bp.py: the bandpass in the header of a UV data set is applied to its data, after the
   autocorrelations were made linear. In the setting of CmdModel.v; what is copied to the header of the
   new data set is HcopyModel.v. *)
From Coq Require Import String Reals.
From Verif Require Import Base UvModel PipeModel HdrModel CmdModel ScrModel.
Open Scope Z_scope.
Local Notation length := List.length.

(* ---------- apply_bp.py:114-127: the polynomials, coefficients from the highest power down ---------- *)
(* numpy.polyval *)
Definition polyval (p : list R) (x : R) : R := fold_left (fun y c => y * x + c)%R p 0%R.
(* numbers are complex: those of the autocorrelations too *)
Definition cpolyval (p : list R) (z : R * R) : R * R :=
  fold_left (fun y c => (fst y * fst z - snd y * snd z + c, fst y * snd z + snd y * fst z)%R) p (0, 0)%R.
(* p *= 10 / np.polyval(p, 10) *)
Definition normal (p : list R) : list R := map (fun c => c * (10 / polyval p 10))%R p.
Definition null_cpoly : list R := [0; 0; 0; 0; 0; 1; 0]%R.
Fixpoint vadd (a b : list R) : list R := match a, b with x :: a, y :: b => (x + y)%R :: vadd a b | _, _ => [] end.
(* digi, full: what np.polyfit gives for the two tables of measurements, seven coefficients each *)
Definition cpoly (digi full : list R) (opt : string) : res (list R) :=
  if String.eqb opt "null" then Ok null_cpoly
  else if String.eqb opt "digi" then Ok (normal digi)
  else if String.eqb opt "full" then Ok (normal full)
  else if String.eqb opt "comb" then Ok (map (fun c => c / 3)%R (vadd (vadd null_cpoly (normal full)) (normal digi)))
  else Err.

(* apply_bp.py:133-134 *)
Definition ignore_vars : list string :=
  ["bandpass"; "freqs"; "ngains"; "nspect0"; "nchan0"; "ntau"; "nfeeds"; "nsols"; "header"; "vartable"]%string.

Section Bp.
Context {G D : Type}.
Variable one : G.                    (* 1. *)
Variable gmul : G -> G -> G.
Variable number : Z -> G.            (* a double from its bits *)

(* ---------- apply_bp.py:147-156 ---------- *)
Fixpoint reals (l : list elem) : option (list G) :=
  match l with
  | [] => Some []
  | ECplx re _ :: r => option_map (cons (number re)) (reals r)
  | _ :: _ => None
  end.
(* bp.shape = (n, m) *)
Fixpoint rows (n m : nat) (v : list G) : list (list G) :=
  match n with O => [] | S n => firstn m v :: rows n m (skipn m v) end.
(* whatever goes wrong in reading uvi['bandpass'] or in giving it its shape is caught. A number alone
   is not an array. *)
Definition bandpass (item : res (option pyval)) (nants nchan : nat) : list (list G) :=
  match item with
  | Ok (Some (Seq l)) =>
    match reals l with
    | Some v => if Nat.eqb (length v) (nants * nchan) then rows nants nchan v else repeat (repeat one nchan) nants
    | None => repeat (repeat one nchan) nants
    end
  | _ => repeat (repeat one nchan) nants
  end.

(* ---------- apply_bp.py:157-161 f ---------- *)
(* linear, dbl: np.polyval of a channel, and the channel as a double precision number; dmul: times a
   gain; sgl: as it is written *)
Variable fl2int : list Z -> Z.
Variable linear dbl : list Z -> D.
Variable dmul : D -> G -> D.
Variable sgl : D -> list Z.
Definition apply_bp (bp : list (list G)) (scale : G) (_ : unit) (r : reader) (x : urec) : res (unit * option urec) :=
  let i := ant_i fl2int x in let j := ant_j fl2int x in
  match nth_error bp (Z.to_nat i), nth_error bp (Z.to_nat j) with
  | Some a, Some b =>
    bind (bcast gmul a b) (fun g =>
    bind (bcast (fun c g => sgl (dmul (if i =? j then linear c else dbl c) (gmul g scale))) (cells (r_n x) (r_corr x)) g) (fun d =>
    (* data *= g does not change the number of channels *)
    if Nat.eqb (length d) (Z.to_nat (r_n x)) then Ok (tt, Some (same_preamble_as x d (r_fl x))) else Err))
  | _, _ => Err                                        (* IndexError *)
  end.
End Bp.
