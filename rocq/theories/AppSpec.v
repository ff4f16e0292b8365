(* SPEC: a data set written over several openings is the list of all the records
   written; a variable keeps its value from one opening to the next. *)
From Verif Require Import Base.
From Coq Require Import String.
From Verif Require Import UvModel UvSpec AppModel. (* AppModel for the syntax of histories *)
Open Scope Z_scope.

(* nchan is written again with the first record after reopening *)
Fixpoint dataset_s (corrty : ty) (e : env) (prevn : Z) (ops : list sop) : list (urec * env) :=
  match ops with
  | [] => []
  | Op (UPut n t bs) :: r => dataset_s corrty (env_put e n t bs) prevn r
  | Op (URec x) :: r => let e' := env_rec corrty e prevn x in (x, e') :: dataset_s corrty e' (r_n x) r
  | Reopen _ :: r => dataset_s corrty e 0 r
  end.

Section Host.
Variable feq8 feq4 : list Z -> list Z -> bool.
Variable add1000 addf1000 : list Z -> list Z.
Variable corrty : ty.

(* As UvSpec.valid. Reopening needs a data set with coordinates, that is, with a record;
   the record after it counts as a first record again. *)
Fixpoint valid_s (nsize : Z) (prev : option urec) (e : env) (set : list (string * list Z))
    (ops : list sop) : Prop :=
  match ops with
  | [] => True
  | Op (UPut n t bs) :: r =>
      good_put n t bs /\
      (forall t' b, look e n = Some (t', b) -> t' = t) /\
      valid_s nsize prev (env_put e n t bs) (match bs with [] => set | _ => (n, bs) :: set end) r
  | Op (URec x) :: r =>
      good_rec corrty nsize x /\ pre_ok feq8 feq4 add1000 addf1000 prev e set x /\
      valid_s nsize (Some x) (env_rec corrty e (prevn prev) x) [] r
  | Reopen _ :: r => look e "coord" <> None /\ valid_s nsize None e [] r
  end.

Fixpoint names_s (e : env) (prevn : Z) (ops : list sop) : list string :=
  match ops with
  | [] => map fst e
  | Op (UPut n t bs) :: r => names_s (env_put e n t bs) prevn r
  | Op (URec x) :: r => names_s (env_rec corrty e prevn x) (r_n x) r
  | Reopen _ :: r => names_s e 0 r
  end.
Definition few_variables_s (ops : list sop) : Prop :=
  (List.length (nodup string_dec ("corr"%string :: names_s [] 0 ops)) <= 128)%nat.
End Host.

(* the records written, in order *)
Fixpoint recs (ops : list sop) : list urec :=
  match ops with
  | [] => []
  | Op (URec x) :: r => x :: recs r
  | _ :: r => recs r
  end.

(* the last (non-empty) value assigned to n by the user *)
Fixpoint last_set_s (ops : list sop) (n : string) : option (list Z) :=
  match ops with
  | [] => None
  | o :: r =>
    match last_set_s r n with
    | Some x => Some x
    | None => match o with
              | Op (UPut m _ (b :: bs)) => if String.eqb m n then Some (b :: bs) else None
              | _ => None
              end
    end
  end.
