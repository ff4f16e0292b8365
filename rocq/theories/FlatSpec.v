(* When two parameter dictionaries are equal, and which can be flattened without loss. *)
From Verif Require Import Base FlatModel.
From Coq Require Import String Permutation.

Section FlatSpec.
Context {V : Type}.
(* dictionary equality: same keys, equal values, order does not matter *)
Inductive same : prm V -> prm V -> Prop :=
| same_num v : same (PNum v) (PNum v)
| same_list l : same (PList l) (PList l)
| same_dict a b c : Permutation a c -> same_items c b -> same (PDict a) (PDict b)
with same_items : list (string * prm V) -> list (string * prm V) -> Prop :=
| same_nil : same_items [] []
| same_cons k x y a b : same x y -> same_items a b -> same_items ((k, x) :: a) ((k, y) :: b).

(* every list holds at least n values *)
Inductive lists_have (n : nat) : prm V -> Prop :=
| ll_num v : lists_have n (PNum v)
| ll_list l : (n <= List.length l)%nat -> lists_have n (PList l)
| ll_dict d : (forall k x, In (k, x) d -> lists_have n x) -> lists_have n (PDict d).

(* same dictionary up to the values held *)
Inductive same_shape : prm V -> prm V -> Prop :=
| sh_num v w : same_shape (PNum v) (PNum w)
| sh_list l m : List.length l = List.length m -> same_shape (PList l) (PList m)
| sh_dict a b : shape_items a b -> same_shape (PDict a) (PDict b)
with shape_items : list (string * prm V) -> list (string * prm V) -> Prop :=
| sh_nil : shape_items [] []
| sh_cons k x y a b : same_shape x y -> shape_items a b -> shape_items ((k, x) :: a) ((k, y) :: b).
(* number of values *)
Fixpoint count (p : prm V) : nat :=
  match p with
  | PNum _ => 1
  | PList l => List.length l
  | PDict d => list_sum (map (fun kv => count (snd kv)) d)
  end.
End FlatSpec.
