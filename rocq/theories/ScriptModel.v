(* Command-line strings: aipy/scripting.py parse_chans, parse_ants, uv_selector.
   A Python string is a list of 8-bit characters. *)
From Verif Require Import Base BaselineModel SelModel.
From Coq Require Import QArith Ascii String.
Open Scope Z_scope.

Definition str := list ascii.
Definition lit (s : string) : str := list_ascii_of_string s.
Definition ceqb (a b : ascii) : bool := Ascii.eqb a b.
Definition cval (c : ascii) : Z := Z.of_N (N_of_ascii c).
Definition is_digit (c : ascii) : bool := (48 <=? cval c) && (cval c <=? 57).
(* str.isspace for ASCII *)
Definition is_space (c : ascii) : bool :=
  ((9 <=? cval c) && (cval c <=? 13)) || ((28 <=? cval c) && (cval c <=? 32)).

(* s.split(c) for a one-character separator *)
Fixpoint split (c : ascii) (s : str) : list str :=
  match s with
  | [] => [[]]
  | x :: r => if ceqb x c then [] :: split c r
              else match split c r with h :: t => (x :: h) :: t | [] => [[x]] end
  end.

(* s.startswith(p) *)
Fixpoint starts (p s : str) : bool :=
  match p, s with
  | [], _ => true
  | a :: p', b :: s' => ceqb a b && starts p' s'
  | _, _ => false
  end.

Fixpoint skip_spaces (s : str) : str :=
  match s with c :: r => if is_space c then skip_spaces r else s | [] => [] end.
Fixpoint horner (acc : Z) (s : str) : res Z :=
  match s with
  | [] => Ok acc
  | c :: r => if is_digit c then horner (10 * acc + (cval c - 48)) r else Err
  end.
Definition strip (s : str) : str := rev (skip_spaces (rev (skip_spaces s))).
Definition nat_lit (s : str) : res Z := match s with [] => Err | _ => horner 0 s end.
(* int(s). Simplification: no '_' between digits (the callers split on it or cannot
   see it) and no digits outside ASCII. *)
Definition py_int (s : str) : res Z :=
  match strip s with
  | c :: r => if ceqb c "-"%char then bind (nat_lit r) (fun n => Ok (- n))
              else if ceqb c "+"%char then nat_lit r else nat_lit (c :: r)
  | [] => Err
  end.

Fixpoint map_res {A B} (f : A -> res B) (l : list A) : res (list B) :=
  match l with
  | [] => Ok []
  | x :: r => bind (f x) (fun y => bind (map_res f r) (fun ys => Ok (y :: ys)))
  end.

(* np.arange(a, b, s) on integers; a zero step is an exception *)
Definition arange (a b s : Z) : res (list Z) :=
  if s =? 0 then Err
  else Ok (map (fun k => a + s * Z.of_nat k) (seq 0 (Z.to_nat (- ((a - b) / s))))).

(* aipy/scripting.py:133-147 one term of the comma list *)
Definition chan_term (co : list Z) : res (list Z) :=
  match co with
  | [n] => Ok [n]
  | [a; b] => arange a (b + 1) 1
  | [a; b; s] => arange a (b + 1) s
  | _ => Err                                   (* assert *)
  end.
(* aipy/scripting.py:133-147 parse_chans(chan_str, nchan, concat=False / True);
   Simplification: numbers outside int64 are not rejected *)
Definition parse_chans_list (s : str) (nchan : Z) : res (list (list Z)) :=
  if starts (lit "all") s then Ok [zrange 0 nchan]
  else map_res (fun co => bind (map_res py_int (split "_"%char co)) chan_term) (split ","%char s).
Definition parse_chans (s : str) (nchan : Z) : res (list Z) :=
  bind (parse_chans_list s nchan) (fun l => Ok (List.concat l)).

(* ---- parse_ants ---- *)
Definition is_xy (c : ascii) : bool := ceqb c "x"%char || ceqb c "y"%char.

Fixpoint span_digits (s : str) : str * str :=
  match s with
  | c :: r => if is_digit c then let '(d, t) := span_digits r in (c :: d, t) else ([], s)
  | [] => ([], [])
  end.

(* regular expression -?\d+[xy]? at the start of s: matched text and the rest. Greedy;
   giving characters back never helps because what follows must be '_', ',' or the end of
   the match. *)
Definition re_single (s : str) : option (str * str) :=
  let '(m, s1) := match s with c :: r => if ceqb c "-"%char then ([c], r) else ([], s) | [] => ([], []) end in
  let '(d, s2) := span_digits s1 in
  match d with
  | [] => None
  | _ => match s2 with
         | c :: s3 => if is_xy c then Some (m ++ d ++ [c], s3) else Some (m ++ d, s2)
         | [] => Some (m ++ d, [])
         end
  end.

(* the language of (-?\d+[xy]?,?)+ as an automaton; the state says what was read last *)
Inductive ust := UStart | UMinus | UDigit | UPol | UComma.
Definition unext (u : ust) (c : ascii) : option ust :=
  if is_digit c then Some UDigit
  else match u with
  | UMinus => None
  | UStart | UComma => if ceqb c "-"%char then Some UMinus else None
  | UDigit => if ceqb c "-"%char then Some UMinus else if is_xy c then Some UPol
              else if ceqb c ","%char then Some UComma else None
  | UPol => if ceqb c "-"%char then Some UMinus else if ceqb c ","%char then Some UComma else None
  end.
Fixpoint urun (u : ust) (s : str) : bool :=
  match s with
  | [] => match u with UDigit | UPol | UComma => true | _ => false end
  | c :: r => match unext u c with Some u' => urun u' r | None => false end
  end.

Fixpoint until_paren (s : str) : option (str * str) :=
  match s with
  | [] => None
  | c :: r => if ceqb c ")"%char then Some ([], r)
              else match until_paren r with Some (a, b) => Some (c :: a, b) | None => None end
  end.

(* aipy/scripting.py:46 ant_re: the text, the inside of the parentheses if any, the rest *)
Definition re_ant (s : str) : option (str * option str * str) :=
  match s with
  | c :: r =>
    if ceqb c "("%char then
      match until_paren r with
      | Some (ins, rest) => if urun UStart ins then Some (c :: ins ++ [")"%char], Some ins, rest) else None
      | None => None
      end
    else match re_single s with Some (t, rest) => Some (t, None, rest) | None => None end
  | [] => None
  end.

Definition opt_comma (s : str) : str :=
  match s with c :: r => if ceqb c ","%char then r else s | [] => [] end.

(* aipy/scripting.py:47 bl_re = (^(A_A|A),?): groups used by the caller and the rest *)
Inductive bl_match :=
| MPair (a : str) (ain : option str) (b : str) (bin : option str)    (* m[2], m[3], m[5], m[6] *)
| MOne (a : str).                                                    (* m[8] *)
Definition re_bl (s : str) : option (bl_match * str) :=
  match re_ant s with
  | None => None
  | Some (a, ain, r) =>
    match (match r with
           | c :: r' => if ceqb c "_"%char then re_ant r' else None
           | [] => None end) with
    | Some (b, bin, r2) => Some (MPair a ain b bin, opt_comma r2)
    | None => Some (MOne a, opt_comma r)
    end
  end.

(* re.search(r'(\d+)([x,y])', s).groups(): leftmost; None is AttributeError *)
Fixpoint re_digits_pol (s : str) : option (str * ascii) :=
  match s with
  | [] => None
  | c :: r =>
    let '(d, t) := span_digits s in
    match d, t with
    | _ :: _, p :: _ => if is_xy p || ceqb p ","%char then Some (d, p) else re_digits_pol r
    | _, _ => re_digits_pol r
    end
  end.

Definition is_digits (s : str) : bool := match s with [] => false | _ => forallb is_digit s end.

(* a result entry: ('auto' or baseline, include, pol or -1) *)
Record entry := Ent { e_bl : option Z; e_inc : bool; e_pol : option (ascii * ascii) }.

(* an antenna operand: the text it came from, or a number of range(nants) *)
Inductive operand := OStr (s : str) | OInt (n : Z).

(* the leading '-' and what remains *)
Definition neg_of (o : operand) : bool * operand :=
  match o with
  | OStr (c :: r) => if ceqb c "-"%char then (true, OStr r) else (false, o)
  | _ => (false, o)
  end.
(* str(i).isdigit() with the number, or the (\d+)([x,y]) groups *)
Inductive view := VNum (n : Z) | VPol (n : Z) (p : ascii).
Definition view_of (o : operand) : res view :=
  match o with
  | OInt n => Ok (VNum n)
  | OStr s => if is_digits s then bind (py_int s) (fun n => Ok (VNum n))
              else match re_digits_pol s with
                   | None => Err
                   | Some (d, p) => bind (py_int d) (fun n => Ok (VPol n p))
                   end
  end.

(* aipy/scripting.py:84-105 body of the double loop *)
Definition pair_entries (i j : operand) : res (list entry) :=
  let '(ni, i) := neg_of i in
  let '(nj, j) := neg_of j in
  let inc := negb ni && negb nj in
  bind (view_of i) (fun vi => bind (view_of j) (fun vj =>
    match vi, vj with
    | VNum a, VNum b => Ok [Ent (Some (ij2bl (Z.abs a) (Z.abs b))) inc None]
    | VNum a, VPol b q => Ok [Ent (Some (ij2bl (Z.abs a) (Z.abs b))) inc (Some ("x"%char, q));
                              Ent (Some (ij2bl (Z.abs a) (Z.abs b))) inc (Some ("y"%char, q))]
    | VPol a p, VNum b => Ok [Ent (Some (ij2bl (Z.abs a) (Z.abs b))) inc (Some (p, "x"%char));
                              Ent (Some (ij2bl (Z.abs a) (Z.abs b))) inc (Some (p, "y"%char))]
    | VPol a p, VPol b q => Ok [Ent (Some (ij2bl (Z.abs a) (Z.abs b))) inc (Some (p, q))]
    end)).

Definition bl_entries (m : bl_match) (nants : Z) : res (list entry) :=
  let '(ais, ajs) := match m with
    | MOne a => ([OStr a], map OInt (zrange 0 nants))
    | MPair a ain b bin =>
      (match ain with None => [OStr a] | Some l => map OStr (split ","%char l) end,
       match bin with None => [OStr b] | Some l => map OStr (split ","%char l) end)
    end in
  bind (map_res (fun i => bind (map_res (fun j => pair_entries i j) ajs) (fun l => Ok (List.concat l))) ais)
       (fun l => Ok (List.concat l)).

(* s[find(',')+1:] or '' *)
Fixpoint after_comma (s : str) : str :=
  match s with [] => [] | c :: r => if ceqb c ","%char then r else after_comma r end.

(* aipy/scripting.py:48-106 parse_ants; rv is the list so far *)
Fixpoint parse_ants_loop (fuel : nat) (rv : list entry) (s : str) (nants : Z) : res (list entry) :=
  match fuel with
  | O => Err
  | S fuel =>
    match s with
    | [] => Ok rv
    | _ =>
      match re_bl s with
      | None =>
        if starts (lit "all") s then parse_ants_loop fuel [] (after_comma s) nants
        else if starts (lit "auto") s then parse_ants_loop fuel (rv ++ [Ent None true None]) (after_comma s) nants
        else if starts (lit "cross") s then parse_ants_loop fuel (rv ++ [Ent None false None]) (after_comma s) nants
        else Err
      | Some (m, r) => bind (bl_entries m nants) (fun l => parse_ants_loop fuel (rv ++ l) r nants)
      end
    end
  end.
Definition parse_ants (s : str) (nants : Z) : res (list entry) :=
  parse_ants_loop (S (List.length s)) [] s nants.

(* aipy/miriad.py:16-29 str2pol for the names parse_ants can produce; others: KeyError *)
Definition str2pol (p : ascii * ascii) : res Z :=
  if ceqb (fst p) "x"%char then
    if ceqb (snd p) "x"%char then Ok (-5) else if ceqb (snd p) "y"%char then Ok (-7) else Err
  else if ceqb (fst p) "y"%char then
    if ceqb (snd p) "y"%char then Ok (-6) else if ceqb (snd p) "x"%char then Ok (-8) else Err
  else Err.

(* aipy/scripting.py:108-130 uv_selector(uv, ants, pol_str): the select calls made;
   pols is the explicit polarisation parameter as codes, None for -1 *)
Definition entry_calls (first : bool) (pols : option (list Z)) (e : entry) : res (list call) :=
  bind (match e_pol e with
        | Some p => bind (str2pol p) (fun c => Ok (Some [c]))
        | None => Ok pols end) (fun ps =>
  Ok ((if first then [] else [if e_inc e then COr else CAnd]) ++
      [match e_bl e with
       | None => CAuto (e_inc e)
       | Some bl => let '(i, j) := bl2ij bl in CAnt i j (e_inc e)
       end] ++
      match ps with
      | None => []
      | Some l => map (fun c => CRange KPol (inject_Z c) 0 true) l
      end)).
Fixpoint entries_calls (first : bool) (pols : option (list Z)) (l : list entry) : res (list call) :=
  match l with
  | [] => Ok []
  | e :: r => bind (entry_calls first pols e) (fun a => bind (entries_calls false pols r) (fun b => Ok (a ++ b)))
  end.
Definition uv_selector (ants : option (list entry)) (pols : option (list Z)) : res (list call) :=
  match ants with
  | Some l => entries_calls true pols l
  | None => match pols with
            | None => Ok []
            | Some l => Ok (map (fun c => CRange KPol (inject_Z c) 0 true) l)
            end
  end.
