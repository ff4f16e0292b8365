(* SPEC: what a data set whose writer was interrupted may look like to a reader. *)
From Verif Require Import Base.
From Coq Require Import String Ascii.
From Verif Require TreeSpec.
From Verif Require Import UvModel UvSpec CrashModel.
Open Scope Z_scope.
Local Notation length := List.length.

(* names of variables: printable characters without blanks, at least one *)
Definition printable (c : ascii) : Prop := (33 <= nat_of_ascii c <= 126)%nat.
Definition plain (n : string) : Prop := n <> ""%string /\ Forall printable (list_ascii_of_string n).
Definition plain_names (ops : list uop) : Prop := forall n t b, In (UPut n t b) ops -> plain n.

(* the items a program may set, besides the three the library keeps the stream in *)
Definition other_items (l : list (list Z * list Z)) : Prop :=
  (length l <= 400)%nat /\
  Forall (fun x => TreeSpec.legal_name (fst x) /\ TreeSpec.legal_data (snd x) /\
                   fst x <> VISDATA /\ fst x <> VARTABLE /\ fst x <> VISLEN) l.

Section Host.
Variable feq8 feq4 : list Z -> list Z -> bool.

(* reading gives the first j records of ds, each with its variables, for some j; if that is
   not all of them, the next read reports the end of the data or an error *)
Definition reads_prefix (ds : list (urec * env)) (outs : list (reader * rdres)) : Prop :=
  exists j, (j <= length ds)%nat /\
    Forall2 (fun d o => seen feq8 feq4 d (uvgetvr (fst o)) (snd o)) (firstn j ds) (firstn j outs) /\
    exists o, nth_error outs j = Some o /\ (snd o = RdEof \/ snd o = RdErr).

(* reading gives all records, each with its variables, then the end *)
Definition reads_all (ds : list (urec * env)) (outs : list (reader * rdres)) : Prop :=
  exists outs' last, outs = (outs' ++ [(last, RdEof)])%list /\
    Forall2 (fun d o => seen feq8 feq4 d (uvgetvr (fst o)) (snd o)) ds outs'.
End Host.
