(* Command-line strings: aipy/scripting.py parse_srcs and parse_prms. A Python string is a list
   of 8-bit characters; what float() makes of one is a parameter, None a ValueError. *)
From Verif Require Import Base ScriptModel.
From Coq Require Import Ascii String.
Open Scope nat_scope.
Local Notation length := List.length.

(* scripting.py:171: [^\(/,\)=] *)
Definition special (c : ascii) : bool :=
  ceqb c "("%char || ceqb c "/"%char || ceqb c ","%char || ceqb c ")"%char || ceqb c "="%char.

(* name, scripting.py:171. Taking fewer characters never helps the rest of the expression, which
   goes on with a special character or nothing. *)
Fixpoint span_name (s : str) : str * str :=
  match s with
  | c :: r => if special c then ([], s) else let '(n, t) := span_name r in (c :: n, t)
  | [] => ([], [])
  end.
Definition re_name (s : str) : option (str * str) :=
  match span_name s with ([], _) => None | p => Some p end.

(* the ( / name )* of grp: the text matched, the rest *)
Fixpoint re_more (fuel : nat) (s : str) : str * str :=
  match fuel with
  | O => ([], s)
  | S fuel =>
    match s with
    | c :: r =>
      if ceqb c "/"%char then
        match re_name r with
        | Some (n, r1) => let '(t, r2) := re_more fuel r1 in (c :: n ++ t, r2)
        | None => ([], s)
        end
      else ([], s)
    | [] => ([], s)
    end
  end.

(* grp, scripting.py:172: a name, or names in parentheses (the text between them) *)
Inductive grp := GName (n : str) | GList (t : str).
Definition re_grp (s : str) : option (grp * str) :=
  match re_name s with
  | Some (n, r) => Some (GName n, r)
  | None =>
    match s with
    | c :: r =>
      if ceqb c "("%char then
        match re_name r with
        | Some (n, r1) =>
          let '(t, r2) := re_more (length r1) r1 in
          match r2 with
          | d :: r3 => if ceqb d ")"%char then Some (GList (n ++ t), r3) else None
          | [] => None
          end
        | None => None
        end
      else None
    | [] => None
    end
  end.

(* prm, scripting.py:173, matched at the start of s (re.match): the groups g[2]/g[3], g[8]/g[9],
   g[16]/g[17] and g[23]/g[24]. What follows the match is not looked at. *)
Record match_ := Match { m_obj : grp; m_prm : grp; m_val : option grp; m_sig : option grp }.
Definition re_prm (s : str) : option match_ :=
  match re_grp s with
  | Some (o, c :: r) =>
    if ceqb c "="%char then
      match re_grp r with
      | Some (p, r2) =>
        match r2 with
        | d :: r3 =>
          if ceqb d "/"%char then
            let '(v, r4) := match re_grp r3 with Some (g, r4) => (Some g, r4) | None => (None, r3) end in
            let sg := match r4 with
                      | e :: r5 => if ceqb e "/"%char then option_map fst (re_grp r5) else None
                      | [] => None end in
            Some (Match o p v sg)
          else Some (Match o p None None)
        | [] => Some (Match o p None None)
        end
      | None => None
      end
    else None
  | _ => None
  end.

Section Prm.
Variable F : Type.
Variable tofloat : str -> option F.

Definition float (s : str) : res F := match tofloat s with Some x => Ok x | None => Err end.

(* scripting.py:186-189 *)
Definition names_of (g : grp) : list str := match g with GName n => [n] | GList t => split "/"%char t end.
(* scripting.py:190-195 *)
Definition vals_of (g : option grp) : res (list (option F)) :=
  match g with
  | Some (GName n) => bind (float n) (fun x => Ok [Some x])
  | Some (GList t) => bind (map_res float (split "/"%char t)) (fun l => Ok (map Some l))
  | None => Ok [None]
  end.

(* l * n *)
Definition times {A} (l : list A) (n : nat) : list A := List.concat (repeat l n).
Definition one_or {A} (l : list A) (n : nat) : list A := if length l =? 1 then times l n else l.

(* scripting.py:196-215: the values for each object, a list of those for each parameter *)
Definition shape (nobj nprm : nat) (ival sval : list (option F))
  : res (list (list (option F)) * list (list (option F))) :=
  if negb (nobj =? 1) then
    if negb (nprm =? 1) then
      if (length ival =? 1) && (length sval =? 1)
      then Ok (times [times ival nprm] nobj, times [times sval nprm] nobj)
      else Err
    else
      let ival := one_or ival nobj in
      let sval := one_or sval nobj in
      if (length ival =? nobj) && (length sval =? nobj)
      then Ok (map (fun i => [i]) ival, map (fun i => [i]) sval)
      else Err
  else
    if negb (nprm =? 1) then
      let ival := one_or ival nprm in
      let sval := one_or sval nprm in
      if (length ival =? nprm) && (length sval =? nprm) then Ok ([ival], [sval]) else Err
    else
      if (length ival =? 1) && (length sval =? 1) then Ok ([ival], [sval]) else Err.

(* Python dictionaries in order of insertion *)
Fixpoint str_eqb (a b : str) : bool :=
  match a, b with
  | [], [] => true
  | x :: a', y :: b' => ceqb x y && str_eqb a' b'
  | _, _ => false
  end.
Fixpoint dget {A} (d : list (str * A)) (k : str) : option A :=
  match d with [] => None | (m, x) :: r => if str_eqb m k then Some x else dget r k end.
Fixpoint dset {A} (d : list (str * A)) (k : str) (x : A) : list (str * A) :=
  match d with
  | [] => [(k, x)]
  | (m, y) :: r => if str_eqb m k then (m, x) :: r else (m, y) :: dset r k x
  end.

Definition pdict := list (str * list (str * (option F * option F))).

(* scripting.py:216-219; combine is zip *)
Definition store_prms (d : list (str * (option F * option F))) (ps : list str) (is ss : list (option F)) :=
  fold_left (fun d x => dset d (fst x) (snd x)) (combine ps (combine is ss)) d.
Definition store (prms : pdict) (objs ps : list str) (iv sv : list (list (option F))) : pdict :=
  fold_left (fun d x => let '(o, (is, ss)) := x in
               dset d o (store_prms (match dget d o with Some e => e | None => [] end) ps is ss))
            (combine objs (combine iv sv)) prms.

(* scripting.py:183-219, one turn of the loop; no match is an AttributeError *)
Definition parse_item (prms : pdict) (s : str) : res pdict :=
  match re_prm s with
  | None => Err
  | Some m =>
    let objs := names_of (m_obj m) in
    let ps := names_of (m_prm m) in
    bind (vals_of (m_val m)) (fun iv => bind (vals_of (m_sig m)) (fun sv =>
    bind (shape (length objs) (length ps) iv sv) (fun q =>
    Ok (store prms objs ps (fst q) (snd q)))))
  end.
Fixpoint parse_items (prms : pdict) (l : list str) : res pdict :=
  match l with [] => Ok prms | s :: r => bind (parse_item prms s) (fun d => parse_items d r) end.
Definition parse_prms (s : str) : res pdict := parse_items [] (split ","%char s).

(* scripting.py:149-169 parse_srcs: (src_list, cutoff, catalogs). A position is what
   fit.RadioFixedBody gets (its own checks are left out). *)
Inductive src := SName (s : str) | SPos (ra dec s : str).
Inductive srcs := SAll | SCut (l : list F) | SList (l : list src).
Definition all_float (l : list str) : bool :=
  forallb (fun s => match tofloat s with Some _ => true | None => false end) l.
Definition src_term (s : str) : src :=
  match split "_"%char s with
  | [ra; dec] => if all_float (split ":"%char ra) && all_float (split ":"%char dec) then SPos ra dec s else SName s
  | _ => SName s
  end.
Definition has_char (c : ascii) (s : str) : bool := existsb (ceqb c) s.
Definition parse_srcs (s cat : str) : res (srcs * list str) :=
  let cats := split ","%char cat in
  if starts (lit "all") s then Ok (SAll, cats)
  else if has_char "/"%char s then bind (map_res float (split "/"%char s)) (fun l => Ok (SCut l, cats))
  else Ok (SList (map src_term (split ","%char s)), cats).
End Prm.
