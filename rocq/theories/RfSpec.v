(* SPEC: what read_files returns, from the list of the records that were selected. *)
From Coq Require Import QArith Ascii String.
From Verif Require Import Base SelModel SelSpec ScriptModel ScriptSpec RfModel. (* models for types only *)
Open Scope Z_scope.
Local Notation length := List.length.

(* the records of one file an antenna string, polarisations and decimation ask for *)
Definition wanted (entries : list entry) (pols : option (list Z)) (dec phs : Z) (recs : list vis) : list vis :=
  let l := filter (entries_keep pols entries) recs in
  if 1 <? dec then decimated dec phs l else l.

(* maximal runs of records of one time *)
Fixpoint integration_groups (l : list vis) : list (list vis) :=
  match l with
  | [] => []
  | v :: r => match integration_groups r with
              | (w :: g) :: gs => if Qeq_bool (v_time v) (v_time w) then (v :: w :: g) :: gs else [v] :: (w :: g) :: gs
              | gs => [v] :: gs
              end
  end.
Definition firsts {A} (f : vis -> A) (gs : list (list vis)) : list A :=
  flat_map (fun g => match g with v :: _ => [f v] | [] => [] end) gs.

(* the polarisation codes and their names *)
Definition pol_names : list (Z * string) :=
  [(1, "I"); (2, "Q"); (3, "U"); (4, "V"); (-1, "rr"); (-2, "ll"); (-3, "rl"); (-4, "lr");
   (-5, "xx"); (-6, "yy"); (-7, "xy"); (-8, "yx")]%string.
Definition pol_named (v : vis) (s : str) : Prop :=
  exists c n, In (c, n) pol_names /\ (v_num v KPol == inject_Z c)%Q /\ s = lit n.
Definition rec_key (v : vis) (k : key) : Prop := fst (fst k) = v_i v /\ snd (fst k) = v_j v /\ pol_named v (snd k).

(* rows of key k: one for each record with that key, in order *)
Inductive rows_of {A} (f : vis -> A) (k : key) : list vis -> list A -> Prop :=
| ro_nil : rows_of f k [] []
| ro_take v l r : rec_key v k -> rows_of f k l r -> rows_of f k (v :: l) (f v :: r)
| ro_skip v l r : ~ rec_key v k -> rows_of f k l r -> rows_of f k (v :: l) r.

(* a polarisation argument: -1, or names separated by commas *)
Definition pols_text (polstr : option str) (pols : option (list Z)) : Prop :=
  (polstr = None /\ pols = None) \/
  exists names codes, names <> [] /\ polstr = Some (join ","%char names) /\ pols = Some codes /\
    Forall2 (fun n c => exists m, In (c, m) pol_names /\ n = lit m) names codes.
