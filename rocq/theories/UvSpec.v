(* SPEC: a UV data set is a list of records; with each record goes the value
   every variable had when the record was written. *)
From Verif Require Import Base.
From Coq Require Import String.
From Verif Require Import UvModel. (* for the syntax: types, records, operations *)
Open Scope Z_scope.

(* the variables and their values, newest assignment first *)
Definition env := list (string * (ty * list Z)).

Fixpoint look (e : env) (n : string) : option (ty * list Z) :=
  match e with
  | [] => None
  | (m, x) :: r => if String.eqb m n then Some x else look r n
  end.

Definition uvw (r : urec) : list Z := r_u r ++ r_v r ++ r_w r.

(* A record sets the preamble variables and the correlations; nchan when the
   number of channels differs from the previous record's; tscale for scaled data. *)
Definition env_rec (corrty : ty) (e : env) (prevn : Z) (r : urec) : env :=
  let e := if r_n r =? prevn then e else ("nchan", (TInt, be4 (r_n r)))%string :: e in
  let e := match corrty with TInt2 => ("tscale", (TReal, r_tscale r))%string :: e | _ => e end in
  ("corr", (corrty, r_corr r))%string :: ("coord", (TDble, uvw r))%string ::
  ("time", (TDble, r_t r))%string :: ("baseline", (TReal, r_bl r))%string :: e.

Definition env_put (e : env) (n : string) (t : ty) (bs : list Z) : env :=
  match bs with [] => e | _ => (n, (t, bs)) :: e end.

(* the data set a history of calls describes *)
Fixpoint dataset (corrty : ty) (e : env) (prevn : Z) (ops : list uop) : list (urec * env) :=
  match ops with
  | [] => []
  | UPut n t bs :: r => dataset corrty (env_put e n t bs) prevn r
  | URec x :: r => let e' := env_rec corrty e prevn x in (x, e') :: dataset corrty e' (r_n x) r
  end.

Section Host.
Variable feq8 feq4 : list Z -> list Z -> bool.   (* C's == on doubles, floats *)
Variable add1000 addf1000 : list Z -> list Z.
Variable corrty : ty.

(* the same double: the same bytes, or compares equal *)
Definition same8 (a b : list Z) : Prop := a = b \/ feq8 a b = true \/ feq8 b a = true.
Definition same4 (a b : list Z) : Prop := a = b \/ feq4 a b = true \/ feq4 b a = true.

(* the record that comes back is the one written *)
Definition same_rec (a b : urec) : Prop :=
  same8 (r_u a) (r_u b) /\ same8 (r_v a) (r_v b) /\ same8 (r_w a) (r_w b) /\
  same8 (r_t a) (r_t b) /\ same4 (r_bl a) (r_bl b) /\
  r_n a = r_n b /\ r_tscale a = r_tscale b /\ r_corr a = r_corr b /\ r_fl a = r_fl b.

Definition preamble_name (n : string) : Prop := n = "coord"%string \/ n = "time"%string \/ n = "baseline"%string.

(* a record as uvwrite gets it: 8-byte doubles, a 4-byte float, n channels *)
Definition good_rec (nsize : Z) (r : urec) : Prop :=
  List.length (r_u r) = 8%nat /\ List.length (r_v r) = 8%nat /\ List.length (r_w r) = 8%nat /\
  List.length (r_t r) = 8%nat /\ List.length (r_bl r) = 4%nat /\
  0 < r_n r /\ r_n r <= nsize /\ 2 * ext corrty * r_n r < 2147483648 /\
  zlen (r_corr r) = 2 * ext corrty * r_n r /\ zlen (r_fl r) = r_n r /\
  match corrty with TInt2 => List.length (r_tscale r) = 4%nat | _ => r_tscale r = [] end.

(* a variable as a user may set it *)
Definition good_put (n : string) (t : ty) (bs : list Z) : Prop :=
  (String.length n <= 8)%nat /\ n <> "corr"%string /\
  zlen bs < 2147483648 /\ zlen bs mod ext t = 0 /\
  (n = "coord"%string -> t = TDble /\ List.length bs = 24%nat) /\
  (n = "time"%string -> t = TDble /\ List.length bs = 8%nat) /\
  (n = "baseline"%string -> t = TReal /\ List.length bs = 4%nat) /\
  (n = "nchan"%string -> t = TInt) /\ (n = "tscale"%string -> t = TReal).

(* the preamble variables, and what a record has for each *)
Definition pre_ty (n : string) : ty := if String.eqb n "baseline" then TReal else TDble.
Definition pre_val (n : string) (r : urec) : list Z :=
  if String.eqb n "coord" then uvw r else if String.eqb n "time" then r_t r else r_bl r.
(* an old and a new value of a preamble variable compare equal, number by number *)
Definition pre_eq (n : string) (old new : list Z) : bool :=
  if String.eqb n "coord" then feq8 (d0 old) (d0 new) && feq8 (d1 old) (d1 new) && feq8 (d2 old) (d2 new)
  else if String.eqb n "time" then feq8 new old else feq4 new old.

(* Which histories are considered. prev: the last record; set: the assignments the user
   has made since. If the user has set a preamble variable, the next record must carry the
   same value (as when copying a data set), or one that differs from the last
   record's (from every assigned value, if there is no record yet). On the first record, a
   preamble variable nobody has set must not happen to equal the initial buffer. *)
Definition pre_ok (prev : option urec) (e : env) (set : list (string * list Z)) (r : urec) : Prop :=
  (forall n, preamble_name n -> In n (map fst set) ->
     look e n = Some (pre_ty n, pre_val n r) \/
     match prev with
     | Some q => pre_eq n (pre_val n q) (pre_val n r) = false
     | None => forall b, In (n, b) set -> pre_eq n b (pre_val n r) = false
     end) /\
  (prev = None ->
     (~ In "coord"%string (map fst set) -> feq8 (add1000 (r_u r)) (r_u r) = false) /\
     (~ In "time"%string (map fst set) -> feq8 (r_t r) (add1000 (r_w r)) = false) /\
     (~ In "baseline"%string (map fst set) -> feq4 (r_bl r) (addf1000 (r_t r)) = false)).

Definition prevn (prev : option urec) : Z := match prev with Some q => r_n q | None => 0 end.

Fixpoint valid (nsize : Z) (prev : option urec) (e : env) (set : list (string * list Z))
    (ops : list uop) : Prop :=
  match ops with
  | [] => True
  | UPut n t bs :: r =>
      good_put n t bs /\
      (forall t' b, look e n = Some (t', b) -> t' = t) /\     (* a variable keeps its type *)
      valid nsize prev (env_put e n t bs) (match bs with [] => set | _ => (n, bs) :: set end) r
  | URec x :: r =>
      good_rec nsize x /\ pre_ok prev e set x /\
      valid nsize (Some x) (env_rec corrty e (prevn prev) x) [] r
  end.

(* names of all variables a history ever sets; the file format has room for 128,
   the correlations included *)
Fixpoint names (e : env) (prevn : Z) (ops : list uop) : list string :=
  match ops with
  | [] => map fst e
  | UPut n t bs :: r => names (env_put e n t bs) prevn r
  | URec x :: r => names (env_rec corrty e prevn x) (r_n x) r
  end.
Definition few_variables (ops : list uop) : Prop :=
  (List.length (nodup string_dec ("corr"%string :: names [] 0 ops)) <= 128)%nat.

(* what reading must give for a record and its variables: the record, and for every
   variable its value at that record. *)
Definition seen (p : urec * env) (get : string -> option (list Z)) (x : rdres) : Prop :=
  exists r', x = RdRec r' /\ same_rec (fst p) r' /\
  forall n t b, look (snd p) n = Some (t, b) ->
    (~ preamble_name n -> get n = Some b) /\
    (n = "coord"%string -> get n = Some (uvw r')) /\
    (n = "time"%string -> get n = Some (r_t r')) /\
    (n = "baseline"%string -> get n = Some (r_bl r')).

(* on a first pass, variables not yet set have no value *)
Definition unseen (p : urec * env) (get : string -> option (list Z)) : Prop :=
  forall n, look (snd p) n = None -> get n = None.
End Host.

(* what is assumed of the host: == on doubles and on floats is symmetric and
   transitive (true of IEEE ==; it need not be reflexive), doubles have 8 bytes,
   and visibilities are floats or scaled 16-bit integers *)
Record host_ok (feq8 feq4 : list Z -> list Z -> bool) (add1000 : list Z -> list Z) (corrty : ty) : Prop := {
  H_corr : corrty = TReal \/ corrty = TInt2;
  H_sym8 : forall a b, feq8 a b = true -> feq8 b a = true;
  H_sym4 : forall a b, feq4 a b = true -> feq4 b a = true;
  H_trans8 : forall a b c, feq8 a b = true -> feq8 b c = true -> feq8 a c = true;
  H_trans4 : forall a b c, feq4 a b = true -> feq4 b c = true -> feq4 a c = true;
  H_len : forall a, List.length (add1000 a) = 8%nat }.

Definition ends_with_record (ops : list uop) : Prop := exists ops0 x, ops = (ops0 ++ [URec x])%list.

(* the last (non-empty) value assigned to n by the user in a history *)
Fixpoint last_set (ops : list uop) (n : string) : option (ty * list Z) :=
  match ops with
  | [] => None
  | o :: r =>
    match last_set r n with
    | Some x => Some x
    | None => match o with
              | UPut m t (b :: bs) => if String.eqb m n then Some (t, b :: bs) else None
              | _ => None
              end
    end
  end.

Fixpoint records (ops : list uop) : nat :=
  match ops with [] => O | URec _ :: r => S (records r) | UPut _ _ _ :: r => records r end.

(* variables uvwrite itself never sets *)
Definition user_name (n : string) : Prop :=
  ~ preamble_name n /\ n <> "corr"%string /\ n <> "nchan"%string /\ n <> "tscale"%string.
