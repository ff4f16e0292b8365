(* What channel and antenna strings mean, as grammars of texts. *)
From Verif Require Import Base BaselineModel SelModel SelSpec ScriptModel.
From Coq Require Import QArith Ascii String.
Open Scope Z_scope.

(* ---- numerals ---- *)
Definition digit_of (d : Z) : ascii := ascii_of_N (Z.to_N (48 + d)).
Inductive digits : str -> Z -> Prop :=
| dg_one d : 0 <= d <= 9 -> digits [digit_of d] d
| dg_snoc s n d : digits s n -> 0 <= d <= 9 -> digits (s ++ [digit_of d]) (10 * n + d).
(* tab, newline, vertical tab, form feed, return, the four separators 28-31, space *)
Definition blank_char (c : ascii) : Prop := In (N_of_ascii c) [9; 10; 11; 12; 13; 28; 29; 30; 31; 32]%N.
Definition blank (s : str) : Prop := Forall blank_char s.
(* text accepted by int(): blanks, sign, digits, blanks *)
Inductive numeral : str -> Z -> Prop :=
| nu_pos a s b n : blank a -> blank b -> digits s n -> numeral (a ++ s ++ b) n
| nu_plus a s b n : blank a -> blank b -> digits s n -> numeral (a ++ "+"%char :: s ++ b) n
| nu_neg a s b n : blank a -> blank b -> digits s n -> numeral (a ++ "-"%char :: s ++ b) (- n).

Fixpoint join (c : ascii) (l : list str) : str :=
  match l with [] => [] | [s] => s | s :: r => s ++ c :: join c r end.

(* ---- channels ---- *)
Inductive chan := One (n : Z) | Range (a b : Z) | Step (a b s : Z).
Inductive chan_text : str -> chan -> Prop :=
| ct_one s n : numeral s n -> chan_text s (One n)
| ct_range s t a b : numeral s a -> numeral t b -> chan_text (join "_"%char [s; t]) (Range a b)
| ct_step s t u a b k : numeral s a -> numeral t b -> numeral u k -> k <> 0 ->
    chan_text (join "_"%char [s; t; u]) (Step a b k).

(* l is a, a+k, a+2k, ...; counting up as long as b is not passed; counting down it
   already stops before b+1, so that b is not reached (a finding) *)
Definition upto (a b k : Z) (l : list Z) : Prop :=
  (forall i x, nth_error l i = Some x -> x = a + k * Z.of_nat i) /\
  (forall i, nth_error l i <> None <-> (0 < k /\ a + k * Z.of_nat i <= b) \/ (k < 0 /\ b + 1 < a + k * Z.of_nat i)).
Definition chan_list (c : chan) (l : list Z) : Prop :=
  match c with
  | One n => l = [n]
  | Range a b => upto a b 1 l
  | Step a b k => upto a b k l
  end.

(* ---- antennas ---- *)
Record ant := Ant { a_neg : bool; a_num : Z; a_pol : option ascii }.
Inductive ant_text : str -> ant -> Prop :=
| at_intro ng s n p : digits s n -> (forall c, p = Some c -> c = "x"%char \/ c = "y"%char) ->
   ant_text ((if ng : bool then ["-"%char] else []) ++ s ++ (match p with Some c => [c] | None => [] end)) (Ant ng n p).
(* one antenna, or several in parentheses *)
Inductive group_text : str -> list ant -> Prop :=
| gt_one s a : ant_text s a -> group_text s [a]
| gt_many l as_ : l <> [] -> Forall2 ant_text l as_ -> group_text ("("%char :: join ","%char l ++ [")"%char]) as_.
Inductive item := IAll | IAuto | ICross | IAnt (a : ant) | IPair (a b : list ant).
Inductive item_text : str -> item -> Prop :=
| it_all : item_text (lit "all") IAll
| it_auto : item_text (lit "auto") IAuto
| it_cross : item_text (lit "cross") ICross
| it_ant s a : ant_text s a -> item_text s (IAnt a)
| it_pair s t a b : group_text s a -> group_text t b -> item_text (s ++ "_"%char :: t) (IPair a b).

(* how a text must begin for parse_ants not to raise: an antenna, a keyword, or a run of
   antennas in parentheses (the commas between them may be missing) *)
Inductive ants_run : str -> Prop :=
| ar_ant s a : ant_text s a -> ants_run s
| ar_comma s a : ant_text s a -> ants_run (s ++ [","%char])
| ar_next s a r : ant_text s a -> ants_run r -> ants_run (s ++ r)
| ar_more s a r : ant_text s a -> ants_run r -> ants_run (s ++ ","%char :: r).
Inductive begins_item : str -> Prop :=
| bi_ant s a r : ant_text s a -> begins_item (s ++ r)
| bi_group l r : ants_run l -> begins_item ("("%char :: l ++ ")"%char :: r)
| bi_word w r : In w [lit "all"; lit "auto"; lit "cross"] -> begins_item (w ++ r).

(* meaning: entries (antenna pair, include, polarisation) *)
Definition pols (p q : option ascii) : list (option (ascii * ascii)) :=
  match p, q with
  | None, None => [None]
  | None, Some q => [Some ("x"%char, q); Some ("y"%char, q)]
  | Some p, None => [Some (p, "x"%char); Some (p, "y"%char)]
  | Some p, Some q => [Some (p, q)]
  end.
Definition pair_meaning (a b : ant) : list entry :=
  map (fun p => Ent (Some (ij2bl (a_num a) (a_num b))) (negb (a_neg a || a_neg b)) p) (pols (a_pol a) (a_pol b)).
Definition item_meaning (nants : Z) (acc : list entry) (i : item) : list entry :=
  match i with
  | IAll => []                                         (* forgets what came before *)
  | IAuto => acc ++ [Ent None true None]
  | ICross => acc ++ [Ent None false None]
  | IAnt a => acc ++ flat_map (fun j => pair_meaning a (Ant false j None)) (zrange 0 nants)
  | IPair l r => acc ++ flat_map (fun a => flat_map (pair_meaning a) r) l
  end.
Definition meaning (nants : Z) (l : list item) : list entry := fold_left (item_meaning nants) l [].

(* ---- uv_selector ---- *)
(* Miriad codes of the linear polarisations *)
Definition pol_code (p : ascii * ascii) : option Z :=
  option_map snd (find (fun x : (ascii * ascii) * Z => Ascii.eqb (fst (fst x)) (fst p) && Ascii.eqb (snd (fst x)) (snd p))
    [("x", "x", -5); ("y", "y", -6); ("x", "y", -7); ("y", "x", -8)]%char).
Definition entry_pols (pol : option (list Z)) (e : entry) : option (list Z) :=
  match e_pol e with
  | None => pol
  | Some p => match pol_code p with Some c => Some [c] | None => None end
  end.
(* a record matches an entry's antennas and has one of its polarisations *)
Definition entry_covers (e : entry) (v : vis) : bool :=
  match e_bl e with
  | None => v_i v =? v_j v
  | Some bl => bl =? ij2bl (v_i v) (v_j v)
  end.
Definition pol_allows (pol : option (list Z)) (v : vis) : bool :=
  match pol with None => true | Some l => existsb (fun c => Qeq_bool (inject_Z c) (v_num v KPol)) l end.
Definition entry_keeps (pol : option (list Z)) (e : entry) (v : vis) : bool :=
  (if e_inc e then entry_covers e v else negb (entry_covers e v)) && pol_allows (entry_pols pol e) v.
(* includes add, excludes restrict, left to right *)
Definition entries_keep (pol : option (list Z)) (l : list entry) (v : vis) : bool :=
  match l with
  | [] => true
  | e :: r => fold_left (fun keep e => if e_inc e then keep || entry_keeps pol e v else keep && entry_keeps pol e v)
                        r (entry_keeps pol e v)
  end.
(* entries as parse_ants produces them *)
Definition entry_ok (e : entry) : Prop :=
  (forall bl, e_bl e = Some bl -> exists i j, 0 <= i <= 2046 /\ 0 <= j <= 2046 /\ bl = ij2bl i j) /\
  (forall p, e_pol e = Some p -> pol_code p <> None).
