(* SPEC: what compressing is to keep. *)
From Coq Require Import Ascii String.
From Verif Require Import Base ScriptModel. (* for the type of strings only *)

(* characters that the shell or tar takes for something else than a part of a name *)
Definition special_chars : str := list_ascii_of_string " ;&|<>()$`\""'*?[]#~=%!{}:^".
Definition plain (i : str) : Prop :=
  i <> [] /\ (forall c, In c i -> ~ In c special_chars /\ (32 < nat_of_ascii c < 127)%nat) /\ (forall r, i <> "-"%char :: r) /\ forall r, i <> r ++ ["/"%char].
Definition beneath (i f : str) : Prop := exists r, f = i ++ "/"%char :: r.
Definition tarball (i : str) : str := i ++ list_ascii_of_string ".tar.bz2".
(* paths that can be given together: none is the tarball of another or lies beneath another, and no tarball lies beneath one or its tarball *)
Definition apart (args : list str) : Prop := forall i j, In i args -> In j args -> i <> tarball j /\ ~ beneath i j /\ ~ beneath i (tarball j) /\ ~ beneath (tarball i) (tarball j).
(* nothing is beneath a path that is not there *)
Definition sane {T} (d : str -> option T) : Prop := forall p f, beneath p f -> d p = None -> d f = None.
