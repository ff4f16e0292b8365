(* SPEC: what a user of a flag bitmap expects. A bitmap maps positions to the
   flag last stored there; None: never stored, nothing is promised. *)
From Verif Require Import Base.
From Verif Require MaskModel. (* only for the syntax of operations and their results *)

Definition bitmap := Z -> option bool.
Definition empty_bitmap : bitmap := fun _ => None.

(* Flags fl stored at positions a, a+1, ... *)
Definition store (K : bitmap) (a : Z) (fl : list bool) : bitmap :=
  fun p => if (a <=? p) && (p <? a + Z.of_nat (length fl))
           then Some (nth (Z.to_nat (p - a)) fl false) else K p.

(* fl is exactly what K holds at a .. a+n-1. *)
Definition holds (K : bitmap) (a n : Z) (fl : list bool) : Prop :=
  Z.of_nat (length fl) = n /\
  forall k, 0 <= k < n -> K (a + k) = Some (nth (Z.to_nat k) fl false).

Definition all_known (K : bitmap) (a n : Z) : Prop :=
  forall k, 0 <= k < n -> K (a + k) <> None.

(* Run-length form: pairs (first,last), 1-based inclusive, increasing, in 1..n.
   lo is the end of the previous run. *)
Fixpoint runs_wf (lo n : Z) (rs : list Z) : Prop :=
  match rs with
  | [] => True
  | s :: r1 => match r1 with
               | [] => False
               | e :: r => lo < s /\ s <= e /\ e <= n /\ runs_wf e n r
               end
  end.

(* The same, and no two runs touch (so the list is determined by the flags). *)
Fixpoint runs_maximal (lo n : Z) (rs : list Z) : Prop :=
  match rs with
  | [] => True
  | s :: r1 => match r1 with
               | [] => False
               | e :: r => lo + 1 < s /\ s <= e /\ e <= n /\ runs_maximal e n r
               end
  end.

Fixpoint in_runs (rs : list Z) (k : Z) : bool :=
  match rs with
  | [] => false
  | s :: r1 => match r1 with
               | [] => false
               | e :: r => ((s <=? k) && (k <=? e)) || in_runs r k
               end
  end.

(* The flag array of length n that a run list denotes. *)
Definition runs_flags (rs : list Z) (n : Z) : list bool :=
  map (fun k => in_runs rs (Z.of_nat k + 1)) (seq 0 (Z.to_nat n)).

(* Histories of calls. *)
Definition valid_op (o : MaskModel.mop) : Prop :=
  match o with
  | MaskModel.OWrite a _ => 0 <= a
  | MaskModel.OWriteRuns a n rs => 0 <= a /\ 0 <= n /\ runs_wf 0 n rs
  | MaskModel.ORead a n | MaskModel.OReadRuns a n => 0 <= a /\ 0 <= n
  | MaskModel.OFlush | MaskModel.OReopen _ => True
  end.

Definition spec_step (K : bitmap) (o : MaskModel.mop) : bitmap :=
  match o with
  | MaskModel.OWrite a fl => store K a fl
  | MaskModel.OWriteRuns a n rs => store K a (runs_flags rs n)
  | _ => K
  end.

(* What the caller must see. Writing and flushing always succeed; reading a range
   every position of which has been stored gives exactly the stored flags;
   reopening succeeds once anything has been stored. *)
Definition expected (K : bitmap) (o : MaskModel.mop) (x : MaskModel.mout) : Prop :=
  match o with
  | MaskModel.OWrite _ _ | MaskModel.OWriteRuns _ _ _ | MaskModel.OFlush =>
      x = MaskModel.RUnit (MaskModel.Ret tt)
  | MaskModel.ORead a n =>
      x <> MaskModel.RFlags MaskModel.NoFuel /\
      (all_known K a n -> exists fl, x = MaskModel.RFlags (MaskModel.Ret fl) /\ holds K a n fl)
  | MaskModel.OReadRuns a n =>
      x <> MaskModel.RRuns MaskModel.NoFuel /\
      (all_known K a n -> exists rs, x = MaskModel.RRuns (MaskModel.Ret rs) /\
         runs_maximal (-1) n rs /\ holds K a n (runs_flags rs n))
  | MaskModel.OReopen _ => (exists p, K p <> None) -> x = MaskModel.RUnit (MaskModel.Ret tt)
  end.

Fixpoint expected_all (K : bitmap) (ops : list MaskModel.mop) (xs : list MaskModel.mout) : Prop :=
  match ops, xs with
  | [], [] => True
  | o :: ops', x :: xs' => expected K o x /\ expected_all (spec_step K o) ops' xs'
  | _, _ => False
  end.
