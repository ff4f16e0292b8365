(* SPEC: what parameter and source strings mean, as grammars of texts. *)
From Verif Require Import Base ScriptModel ScriptSpec PrmModel. (* models for strings and results only *)
From Coq Require Import Ascii String.
Open Scope nat_scope.
Local Notation length := List.length.

Definition name_ok (n : str) : Prop :=
  n <> [] /\ forall c, In c n -> ~ In c ["("; "/"; ","; ")"; "="]%char.

(* one name, or several in parentheses *)
Inductive names_text : str -> list str -> Prop :=
| nt_one n : name_ok n -> names_text n [n]
| nt_many l : l <> [] -> Forall name_ok l -> names_text ("("%char :: join "/"%char l ++ [")"%char]) l.

Section Spec.
Variable F : Type.
Variable tofloat : str -> option F.

(* numbers are written as such names *)
Definition nums_text (s : str) (l : list F) : Prop :=
  exists ts, names_text s ts /\ Forall2 (fun t x => tofloat t = Some x) ts l.

(* obj=prm, obj=prm/val, obj=prm/val/sig, obj=prm//sig; None: not given *)
Record assign := Assign { a_objs : list str; a_prms : list str; a_vals : option (list F); a_sigs : option (list F) }.
Inductive tail_text : str -> option (list F) -> option (list F) -> Prop :=
| tt_none : tail_text [] None None
| tt_slash : tail_text ["/"%char] None None
| tt_val v l : nums_text v l -> tail_text ("/"%char :: v) (Some l) None
| tt_val_slash v l : nums_text v l -> tail_text ("/"%char :: v ++ ["/"%char]) (Some l) None
| tt_both v l s m : nums_text v l -> nums_text s m -> tail_text ("/"%char :: v ++ "/"%char :: s) (Some l) (Some m)
| tt_sig s m : nums_text s m -> tail_text ("/"%char :: "/"%char :: s) None (Some m)
| tt_slashes : tail_text ["/"; "/"]%char None None.
Inductive assign_text : str -> assign -> Prop :=
| as_intro o p t os ps v s : names_text o os -> names_text p ps -> tail_text t v s ->
    assign_text (o ++ "="%char :: p ++ t) (Assign os ps v s).

(* how many numbers may be given: one for all; or one for each object if there is one parameter; or
   one for each parameter if there is one object *)
Definition count_ok (nobj nprm : nat) (l : option (list F)) : Prop :=
  match l with
  | None => True
  | Some l => length l = 1 \/ (nprm = 1 /\ length l = nobj) \/ (nobj = 1 /\ length l = nprm)
  end.
Definition assign_ok (a : assign) : Prop :=
  count_ok (length (a_objs a)) (length (a_prms a)) (a_vals a) /\
  count_ok (length (a_objs a)) (length (a_prms a)) (a_sigs a).

(* the number for object i and parameter j *)
Definition pick (nobj : nat) (l : option (list F)) (i j : nat) : option F :=
  match l with
  | None => None
  | Some [x] => Some x
  | Some l => nth_error l (if nobj =? 1 then j else i)
  end.

(* all the settings a list of assignments makes, in order *)
Definition settings (a : assign) : list (str * str * (option F * option F)) :=
  flat_map (fun i => map (fun j =>
      (nth i (a_objs a) [], nth j (a_prms a) [],
       (pick (length (a_objs a)) (a_vals a) i j, pick (length (a_objs a)) (a_sigs a) i j)))
    (seq 0 (length (a_prms a)))) (seq 0 (length (a_objs a))).

(* the last setting of parameter p of object o *)
Fixpoint last_setting (l : list (str * str * (option F * option F))) (o p : str) : option (option F * option F) :=
  match l with
  | [] => None
  | (o', p', x) :: r =>
    match last_setting r o p with
    | Some y => Some y
    | None => if list_eq_dec ascii_dec o' o then if list_eq_dec ascii_dec p' p then Some x else None else None
    end
  end.

(* ---- sources ---- *)
Definition position_text (s ra dec : str) : Prop :=
  s = ra ++ "_"%char :: dec /\ ~ In "_"%char ra /\ ~ In "_"%char dec /\
  exists rs ds, ra = join ":"%char rs /\ dec = join ":"%char ds /\ rs <> [] /\ ds <> [] /\
    Forall (fun t => tofloat t <> None /\ ~ In ":"%char t) (rs ++ ds).
Definition src_means (s : str) (x : src) : Prop :=
  (exists ra dec, position_text s ra dec /\ x = SPos ra dec s) \/
  ((forall ra dec, ~ position_text s ra dec) /\ x = SName s).
End Spec.
