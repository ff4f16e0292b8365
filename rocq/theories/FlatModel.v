(* Hierarchical parameter dictionaries: aipy/fit.py flatten_prms, reconstruct_prms. *)
From Verif Require Import Base.
From Coq Require Import String.
Open Scope nat_scope.

Section Flat.
Context {V : Type}.          (* parameter values *)

(* a dictionary is a list of items with distinct keys, in insertion order *)
Inductive prm := PNum (v : V) | PList (l : list V) | PDict (d : list (string * prm)).
(* the key list: (offset, length) or a nested key list *)
Inductive kl := KLeaf (i n : nat) | KDict (d : list (string * kl)).

(* sorted(keys) *)
Fixpoint insert_key {A} (x : string * A) (l : list (string * A)) : list (string * A) :=
  match l with
  | [] => [x]
  | y :: r => if String.leb (fst x) (fst y) then x :: l else y :: insert_key x r
  end.
Fixpoint sort_keys {A} (l : list (string * A)) : list (string * A) :=
  match l with [] => [] | x :: r => insert_key x (sort_keys r) end.

(* the loop over the sorted keys; each item comes with its own flattening step *)
Fixpoint flat_loop (l : list (string * (list V -> list V * kl))) (acc : list V) : list V * list (string * kl) :=
  match l with
  | [] => (acc, [])
  | (k, f) :: r => let '(acc1, k1) := f acc in let '(acc2, ks) := flat_loop r acc1 in (acc2, (k, k1) :: ks)
  end.

(* aipy/fit.py:18-37 flatten_prms(prms, prm_list) *)
Fixpoint flatten (p : prm) (acc : list V) : list V * kl :=
  match p with
  | PNum v => (acc ++ [v], KLeaf (List.length acc) 1)
  | PList l => (acc ++ l, KLeaf (List.length acc) (List.length l))
  | PDict d => let '(acc', ks) := flat_loop (sort_keys (map (fun kv => (fst kv, flatten (snd kv))) d)) acc in (acc', KDict ks)
  end.
Definition flatten_prms (p : prm) : list V * kl := flatten p [].

(* aipy/fit.py:39-50 reconstruct_prms(prm_list, key_list) *)
Fixpoint reconstruct (vs : list V) (k : kl) : res prm :=
  match k with
  | KLeaf i n => if 1 <? n then Ok (PList (firstn n (skipn i vs)))
                 else match nth_error vs i with Some v => Ok (PNum v) | None => Err end    (* IndexError *)
  | KDict d =>
    bind ((fix loop (d : list (string * kl)) : res (list (string * prm)) :=
             match d with
             | [] => Ok []
             | (k, x) :: r => bind (reconstruct vs x) (fun y => bind (loop r) (fun ys => Ok ((k, y) :: ys)))
             end) d) (fun l => Ok (PDict l))
  end.
End Flat.
Arguments prm : clear implicits.
