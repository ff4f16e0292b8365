(* scripts/compress_uv.py: making and unpacking tarballs with shell commands. A path is a list of 8-bit characters; T is
   what a path holds, a directory with all that is in it. That what is in a directory is read through its own path too
   is not modelled, but for its removal. What bz2 and tar make of a member, and when they fail for reasons of their own,
   are parameters. Of the shell, the splitting at spaces is modelled. *)
From Coq Require Import Ascii String.
From Verif Require Import Base ScriptModel.
Local Notation length := List.length.

Section Tar.
Variable T : Type.
Variable pack : list (str * T) -> T.
Variable unpack : T -> option (list (str * T)).
Notation fs := (str -> option T) (only parsing).
(* tar fails though all is there: what it leaves at the path of the tarball; None: nothing is written *)
Variable trouble : fs -> str -> list str -> option (option T).
(* what it leaves there when a member is missing *)
Variable rest : fs -> str -> list str -> option T.

Definition same (a b : str) : bool := if list_eq_dec ascii_dec a b then true else false.
Fixpoint drop_slashes (s : str) : str := match s with c :: r => if ceqb c "/"%char then drop_slashes r else s | [] => [] end.
(* a/ is a *)
Definition stripped (s : str) : str := rev (drop_slashes (rev s)).
Definition words (s : str) : list str := filter (fun w => negb (same w [])) (split " "%char s).
Definition put (d : fs) (f : str) (x : option T) : fs := fun g => if same g f then x else d g.
Fixpoint members (d : fs) (l : list str) : option (list (str * T)) :=
  match l with
  | [] => Some []
  | m :: r => match d (stripped m), members d r with Some x, Some y => Some ((m, x) :: y) | _, _ => None end
  end.
(* tar jcf: the files after it, and whether the status is zero *)
Definition tar_c (d : fs) (line : list str) : fs * bool :=
  match line with
  | [] => (d, false)
  | f :: ms =>
    match members d ms with
    | None => (match rest d f ms with None => d | x => put d f x end, false)
    | Some l => match trouble d f ms with
                | None => (put d f (Some (pack l)), true)
                | Some None => (d, false)
                | Some x => (put d f x, false)
                end
    end
  end.
(* rm -rf: the path and all that is beneath it *)
Definition rm1 (d : fs) (w : str) : fs := fun g => if (same g (stripped w) || starts (stripped w ++ ["/"%char]) g)%bool then None else d g.
Definition rm (d : fs) (line : list str) : fs := fold_left rm1 line d.
(* tar xjf *)
Definition tar_x (d : fs) (line : list str) : fs * bool :=
  match line with
  | [f] => match d f with
           | None => (d, false)
           | Some t => match unpack t with None => (d, false) | Some l => (fold_left (fun d m => put d (stripped (fst m)) (Some (snd m))) l d, true) end
           end
  | _ => (d, false)
  end.
Definition ext : str := lit ".tar.bz2".
(* 24-39 *)
Fixpoint run (expand delete : bool) (args : list str) (d : fs) : fs :=
  match args with
  | [] => d
  | i :: r =>
    if expand then let (d, ok) := tar_x d (words i) in if ok then run expand delete r d else d
    else
      let c := i ++ ext in
      match d c with
      | Some _ => run expand delete r d
      | None =>
        let (d, ok) := tar_c d (words (c ++ " "%char :: i)) in
        if ok then run expand delete r (if delete then rm d (words i) else d)
        else rm d (words c)
      end
  end.
End Tar.
