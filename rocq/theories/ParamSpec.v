(* What a user sees of parameter objects. *)
From Verif Require Import Base ParamModel.
From Coq Require Import Ascii String.

(* the last value given for k by a sequence of dictionaries *)
Definition last_set {A} (k : string) (ds : list (dict A)) (old : option A) : option A :=
  fold_left (fun o d => match lookup k d with Some v => Some v | None => o end) ds old.

Section ParamSpec.
Context {F : Type}.
Inductive value := VNum (x : F) | VList (l : list F).

(* antenna i's parameter k as get_params(k) shows it *)
Definition reads (w : world F) (i : nat) (k : string) : option value :=
  match ant_get w i [k] with
  | Ok (w', d) => match lookup k d with
                  | Some (ANum x) => Some (VNum x)
                  | Some (ARef l) => Some (VList (content (w_heap w') l))
                  | None => None
                  end
  | Err => None
  end.
(* the phase polynomials and gains in effect (what update() last used), per polarisation *)
Definition in_effect (w : world F) (i : nat) : option (list (string * (list F * (list F * list F * F)))) :=
  option_map (fun a => map (fun kp => (fst kp, (p_phs (snd kp), p_gain (snd kp)))) (a_pols a)) (nth_error (w_ants w) i).

(* the last but one, the last element replaced *)
Definition with_last2 (l : list F) (x : F) : list F := match rev l with o :: _ :: r => rev (o :: x :: r) | _ => l end.
Definition with_last (l : list F) (x : F) : list F := match rev l with _ :: r => rev (x :: r) | _ => l end.
Definition edited (d : dict (aval F)) (p : string) (l : list F) : list F :=
  let l1 := match lookup (name "dly" p) d with Some (ANum x) => with_last2 l x | _ => l end in
  match lookup (name "off" p) d with Some (ANum x) => with_last l1 x | _ => l1 end.
(* contents of a list object after a set_params call with dictionary d on antenna a *)
Definition new_content (h : list (list F)) (a : ant F) (d : dict (aval F)) (l : loc) : list F :=
  match find (fun kp => Nat.eqb (p_off (snd kp)) l) (a_pols a) with
  | Some (p, _) => edited d p (content h l)
  | None => content h l
  end.
Definition given (d : dict (aval F)) (k : string) (old : loc) : loc :=
  match lookup k d with Some (ARef l) => l | _ => old end.
Definition given_num (d : dict (aval F)) (k : string) (old : F) : F :=
  match lookup k d with Some (ANum x) => x | _ => old end.

(* polarisation names: one empty name (fit) or distinct non-empty names (pol) *)
Definition good_names (ps : list string) : Prop := ps = [""%string] \/ (NoDup ps /\ ~ In ""%string ps).

(* who uses which list object: every list given as phsoff is used as phsoff by one
   antenna and polarisation only and never as a bandpass *)
Definition uses_ok (owner : loc -> option (nat * string)) (nants : nat) (o : wop F) : Prop :=
  match o with
  | WNew _ _ _ l => Forall (fun kn : string * newp F =>
      owner (dflt 0 (n_off (snd kn))) = Some (nants, fst kn) /\
      owner (dflt 1 (n_bpr (snd kn))) = None /\ owner (dflt 2 (n_bpi (snd kn))) = None) l
  | WSet i d => forall p, 
      (forall l, lookup (name "phsoff" p) d = Some (ARef l) -> owner l = Some (i, p)) /\
      (forall l, lookup (name "bp_r" p) d = Some (ARef l) -> owner l = None) /\
      (forall l, lookup (bpi_set_name p) d = Some (ARef l) -> owner l = None)
  | _ => True
  end.
(* references point to lists that exist *)
Definition refs_below (n : nat) (o : wop F) : Prop :=
  match o with
  | WNew _ _ _ l => Forall (fun kn : string * newp F => (dflt 0 (n_off (snd kn)) < n /\ dflt 1 (n_bpr (snd kn)) < n /\ dflt 2 (n_bpi (snd kn)) < n)%nat) l
  | WSet i d => forall k l, lookup k d = Some (ARef l) -> (l < n)%nat
  | _ => True
  end.
Fixpoint disciplined (owner : loc -> option (nat * string)) (w : world F) (ops : list (wop F)) : Prop :=
  match ops with
  | [] => True
  | o :: r => uses_ok owner (List.length (w_ants w)) o /\ refs_below (List.length (w_heap w)) o /\
              forall w', wstep w o = Ok w' -> disciplined owner w' r
  end.
Definition on_antenna (i : nat) (o : wop F) : Prop :=
  match o with WSet j _ | WUpdate j => j = i | _ => False end.
End ParamSpec.
