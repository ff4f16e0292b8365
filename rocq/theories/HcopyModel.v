(* Header items of several data sets: UV.items, the header loop of UV.init_from_uv and the history
   line of UV.pipe, aipy/miriad.py:99-107, 248-256, 277, over HdrModel.
   Not modelled here: the loop of init_from_uv over variables (PipeModel has it); names that are
   also UV variables. *)
From Verif Require Import Base HioModel TreeModel.
From Coq Require Import String.
From Verif Require Import HdrModel.
Open Scope Z_scope.

(* miriad.py:99-107 *)
Fixpoint present (l : list string) (t : tree) : tree * list string :=
  match l with
  | [] => (t, [])
  | n :: r => let '(t1, x) := t_get (codes n) t in
              let '(t2, ks) := present r t1 in
              (t2, match x with Some _ => n :: ks | None => ks end)
  end.
Definition items (t : tree) : tree * list string := present (map fst itemtable) t.

Section Copy.
Variable narrow widen : Z -> Z.
Variable junk : Z -> Z.
Variable bsz : entry -> Z.

(* miriad.py:253-256; Err: an exception *)
Fixpoint copy_items (ov : list (string * pyval)) (ex : list string) (ks : list string) (src dst : tree) : res (tree * tree) :=
  match ks with
  | [] => Ok (src, dst)
  | k :: r =>
    if existsb (String.eqb k) ex then copy_items ov ex r src dst else
    match assoc ov k with
    | Some v => bind (uset narrow junk bsz k v dst) (fun d => copy_items ov ex r src d)
    | None => bind (uget widen junk k src) (fun p =>
              match snd p with
              | Some v => bind (uset narrow junk bsz k v dst) (fun d => copy_items ov ex r (fst p) d)
              | None => Err
              end)
    end
  end.
Definition init_from (ov : list (string * pyval)) (ex : list string) (src dst : tree) : res (tree * tree) :=
  let '(src', ks) := items src in copy_items ov ex ks src' dst.

(* miriad.py:277. Ok None: no history to read, an IOError that leaves the data set as it is *)
Definition add_history (s : list Z) (t : tree) : res (option tree) :=
  bind (uget widen junk "history" t) (fun p =>
  match snd p with
  | Some (Text h) => bind (uset narrow junk bsz "history" (Text (h ++ s)) (fst p)) (fun t' => Ok (Some t'))
  | Some _ => Err
  | None => Ok None
  end).

(* calls on data sets 0, 1, 2, ... *)
Inductive wop :=
| On (i : nat) (o : vop)
| InitFrom (i j : nat) (ov : list (string * pyval)) (ex : list string)   (* uv_j.init_from_uv(uv_i, ov, ex) *)
| History (j : nat) (s : list Z).                                       (* uv_j.pipe(..., append2hist=s), first line *)

Definition put {A} (w : nat -> A) (i : nat) (x : A) : nat -> A := fun k => if Nat.eqb k i then x else w k.

Definition w_step (w : nat -> tree) (o : wop) : option (nat -> tree) * vres :=
  match o with
  | On i o => match v_step narrow widen junk bsz (w i) o with
              | (Some t, r) => (Some (put w i t), r)
              | (None, r) => (None, r)
              end
  | InitFrom i j ov ex => match init_from ov ex (w i) (w j) with
                          | Ok (a, b) => (Some (put (put w i a) j b), VDone)
                          | Err => (None, VErr)
                          end
  | History j s => match add_history s (w j) with
                   | Ok (Some t) => (Some (put w j t), VDone)
                   | Ok None => (Some w, VNone)
                   | Err => (None, VErr)
                   end
  end.

Fixpoint w_run (w : nat -> tree) (ops : list wop) : list vres :=
  match ops with
  | [] => []
  | o :: r => match w_step w o with (Some w', x) => x :: w_run w' r | (None, x) => [x] end
  end.
End Copy.
