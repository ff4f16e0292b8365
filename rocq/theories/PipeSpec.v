(* SPEC: what a copy of a UV data set through a per-record function must hold. *)
From Verif Require Import Base.
From Coq Require Import String.
From Verif Require Import UvModel UvSpec PipeModel. (* for the syntax: records, operations, assignments *)
Open Scope Z_scope.

(* ks lists the variables of the source *)
Definition same_members (ks : list string) (r : reader) : Prop :=
  NoDup ks /\ forall n, In n ks <-> In n (map v_name (rd_vars r)).

(* variables that are copied record by record: neither excluded nor overridden *)
Definition tracked (ks : list string) (ov : list (string * list Z)) (ex : list string) (n : string) : Prop :=
  In n ks /\ ~ In n ex /\ getov ov n = None /\ n <> "corr"%string.

(* the values of variables that are not copied: overridden ones start with their override *)
Definition start (ks : list string) (ov : list (string * list Z)) (ex : list string) (n : string) : option (list Z) :=
  if mem n ks && negb (mem n ex) then
    match getov ov n with Some (b :: bs) => Some (b :: bs) | _ => None end
  else None.
(* ... and then follow the assignments the function makes *)
Definition assign (U : string -> option (list Z)) (p : put) : string -> option (list Z) :=
  match snd p with [] => U | b => fun n => if String.eqb (fst (fst p)) n then Some b else U n end.

Section Spec.
Variable feq8 feq4 : list Z -> list Z -> bool.
Variable corrty : ty.                              (* of the output *)
Variable f : nat -> reader -> urec -> list put * option urec.   (* acting on records as read *)
Variable T : string -> ty.                         (* the types of all variables *)
Variable trk : string -> Prop.
Variable nsize' : Z.                               (* room when the output is read *)

(* What is asked of the function along the records rs read from the source. It may assign
   variables that are not copied. A record it returns has a preamble of its own only if this differs
   from the previous output record's (from all source values so far, if there is none). *)
Fixpoint good_outs (prev : option urec) (past : string -> list Z -> Prop) (k : nat)
    (rs : list (reader * rdres)) : Prop :=
  match rs with
  | (r, RdRec x) :: rest =>
    let past' := fun n b => past n b \/ b = pre_val n x in
    Forall (fun p => good_put (fst (fst p)) (snd (fst p)) (snd p) /\ snd (fst p) = T (fst (fst p)) /\
                     ~ trk (fst (fst p)) /\ ~ preamble_name (fst (fst p))) (fst (f k r x)) /\
    match snd (f k r x) with
    | None => good_outs prev past' (S k) rest
    | Some y =>
      good_rec corrty nsize' y /\
      (forall n, preamble_name n -> pre_val n y = pre_val n x \/
         match prev with
         | Some q => pre_eq feq8 feq4 n (pre_val n q) (pre_val n y) = false
         | None => forall b, past' n b -> pre_eq feq8 feq4 n b (pre_val n y) = false
         end) /\
      good_outs (Some y) past' (S k) rest
    end
  | _ => True
  end.

(* the records that must come out, in order: for each, the source record with its variables,
   the record returned, and the values of the variables that are not copied *)
Fixpoint expected (U : string -> option (list Z)) (k : nat) (ds : list (urec * env)) (rs : list (reader * rdres))
    : list ((urec * env) * urec * (string -> option (list Z))) :=
  match ds, rs with
  | d :: ds', (r, RdRec x) :: rs' =>
    let U' := fold_left assign (fst (f k r x)) U in
    match snd (f k r x) with
    | None => expected U' (S k) ds' rs'
    | Some y => (d, y, U') :: expected U' (S k) ds' rs'
    end
  | _, _ => []
  end.

(* names of all variables the output may get *)
Fixpoint put_names (k : nat) (rs : list (reader * rdres)) : list string :=
  match rs with
  | (r, RdRec x) :: rest => map (fun p => fst (fst p)) (fst (f k r x)) ++ put_names (S k) rest
  | _ => []
  end.

(* what reading the output gives for an expected record *)
Definition comes_out (nc : Prop) (q : (urec * env) * urec * (string -> option (list Z)))
    (get : string -> option (list Z)) (a : rdres) : Prop :=
  let '(d, y, U) := q in
  exists y', a = RdRec y' /\ same_rec feq8 feq4 y y' /\
    (* copied variables have the source's value at that record *)
    (forall n t b, trk n -> user_name n \/ (n = "nchan"%string /\ nc) -> look (snd d) n = Some (t, b) -> get n = Some b) /\
    (* the others have the function's last assignment, else the override, else nothing *)
    (forall n, user_name n -> ~ trk n -> get n = U n) /\
    (forall n, preamble_name n -> get n = Some (pre_val n y')).

(* every record that comes out has as many channels as the source's nchan says *)
Definition nchan_agrees (l : list ((urec * env) * urec * (string -> option (list Z)))) : Prop :=
  Forall (fun q => look (snd (fst (fst q))) "nchan" = Some (TInt, be4 (r_n (snd (fst q))))) l.
End Spec.

(* the variables every data set with records has *)
Definition builtins (corrty : ty) : list string :=
  ["corr"; "coord"; "time"; "baseline"; "nchan"]%string ++
  match corrty with TInt2 => ["tscale"%string] | _ => [] end.

(* Source data sets that can be copied: each variable to be copied has been set before the first
   record; integers are single; no value is longer than 32 kB. *)
Definition copyable (ks : list string) (ov : list (string * list Z)) (ex : list string)
    (ds : list (urec * env)) : Prop :=
  (forall n d, tracked ks ov ex n -> nth_error ds 0 = Some d -> look (snd d) n <> None) /\
  (forall n d t b, tracked ks ov ex n -> In d ds -> look (snd d) n = Some (t, b) ->
     zlen b <= MAXVAR /\ (t = TInt \/ t = TInt2 -> zlen b = ext t)).
