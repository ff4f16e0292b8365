(* Shared imports and arithmetic automation. No model content. *)
From Coq Require Export List Arith ZArith Lia Bool.
From Coq Require Export ZifyBool ZifyNat ZifyN.
Export ListNotations.
Ltac Zify.zify_post_hook ::= Z.div_mod_to_equations.
Open Scope Z_scope.

(* Results of code that may raise: Python exceptions, bug_c('f',..) aborts and
   non-zero iostat are values. *)
Inductive res (A : Type) : Type :=
| Ok (a : A)
| Err.
Arguments Ok {A} a.
Arguments Err {A}.

Definition bind {A B} (r : res A) (f : A -> res B) : res B :=
  match r with Ok a => f a | Err => Err end.

Definition is_ok {A} (r : res A) : bool := match r with Ok _ => true | Err => false end.
