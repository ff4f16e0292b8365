(* What the spectrum of a source and a line of a catalogue file mean. *)
From Coq Require Import Reals Ascii String.
From Verif Require Import Base ScriptModel ScriptSpec SrcModel.
Local Open Scope R_scope.
Local Notation length := List.length.

(* ---- spectra, as functions of frequency ---- *)
(* j at frequency m, and in proportion to frequency to the power i *)
Definition power_law (S : R -> R) (j i m : R) : Prop :=
  S m = j /\ forall f g, 0 < f -> 0 < g -> S g = S f * exp (i * (ln g - ln f)).
(* Helmboldt et al. 2008, equation 1: Y = A + B X + C e^(D X) with X, Y the decimal logarithms of
   frequency over m and of flux; A is the logarithm of j *)
Definition helmboldt (S : R -> R) (j B C D m : R) : Prop :=
  forall f, 0 < f -> 0 < S f /\
    exists X, f = m * exp (X * ln 10) /\ ln (S f) = ln j + (B * X + C * exp (D * X)) * ln 10.
(* the flux density a source object gives *)
Definition shines (b : body) (S : R -> R) : Prop := forall f, 0 < f -> flux b f = Ok (Some (S f)).

(* ---- lines of a file ---- *)
Definition comment (L : str) : Prop := exists s, L = "#"%char :: s.
Definition tab_char : ascii := ascii_of_N 9.
Definition fields (L : str) (t : list str) : Prop := t <> [] /\ Forall (fun s => ~ In tab_char s) t /\ L = join tab_char t.
Definition digit_char (c : ascii) : Prop := (48 <= N_of_ascii c <= 57)%N.
(* s is t without blanks at either end *)
Definition trimmed (t s : str) : Prop :=
  (exists a b, blank a /\ blank b /\ t = a ++ s ++ b) /\
  (forall c r, s = c :: r -> ~ blank_char c) /\ (forall c r, s = r ++ [c] -> ~ blank_char c).
(* u is t with colons in place of spaces *)
Definition colon_sep (t u : str) : Prop :=
  Forall2 (fun x y => (x = " "%char /\ y = ":"%char) \/ (x <> " "%char /\ y = x)) t u.

Section Files.
Variable num : str -> option R.
(* reading line by line: passed over, or one row and what it gives *)
Inductive reads (skipped : str -> Prop) (gives : str -> list body -> Prop) : list str -> list body -> Prop :=
| rd_nil : reads skipped gives [] []
| rd_skip L r l : skipped L -> reads skipped gives r l -> reads skipped gives (L :: r) l
| rd_row L r b l : gives L b -> reads skipped gives r l -> reads skipped gives (L :: r) (b ++ l).
(* a line is passed over if it is a comment, has no more than k columns or does not begin with a
   digit. pre: what is done to the line first; lead: to the first field *)
Definition no_row (pre : str -> str -> Prop) (k : nat) (lead : str -> str -> Prop) (L : str) : Prop :=
  comment L \/ exists L' t, pre L L' /\ fields L' t /\
    ((length t <= k)%nat \/ exists f r c s, t = f :: r /\ lead f (c :: s) /\ ~ digit_char c).
Definition table_row (pre : str -> str -> Prop) (k : nat) (lead : str -> str -> Prop) (row : list str -> list body -> Prop)
    (L : str) (l : list body) : Prop :=
  ~ comment L /\ exists L' t, pre L L' /\ fields L' t /\ (k < length t)%nat /\
    (exists f r c s, t = f :: r /\ lead f (c :: s) /\ digit_char c) /\ row t l.
Definition table (row : list str -> list body -> Prop) (lines : list str) (l : list body) : Prop :=
  reads (no_row eq 4 eq) (table_row eq 4 eq row) lines l.
(* the fields of a row and the source: numbers of the columns (from 0) of position, name and flux *)
Definition placed (cra cdec : nat) (t : list str) (b : body) : Prop :=
  exists ra dec, nth_error t cra = Some ra /\ nth_error t cdec = Some dec /\ colon_sep ra (b_ra b) /\ colon_sep dec (b_dec b).
Definition in_column (k : nat) (t : list str) (b : body) : Prop := exists n, nth_error t k = Some n /\ trimmed n (b_name b).
Definition by_position (t : list str) (b : body) : Prop := b_name b = b_ra b ++ "_"%char :: b_dec b.
Definition measured (k : nat) (unit mf : R) (t : list str) (b : body) : Prop :=
  exists jt j, nth_error t k = Some jt /\ num jt = Some j /\ b_jys b = Some (j * unit) /\ b_mfreq b = mf.
Definition flat (b : body) : Prop := b_spec b = Law 0.
Definition source (cra cdec cjys : nat) (named : list str -> body -> Prop) (unit mf : R) (t : list str) (l : list body) : Prop :=
  exists b, l = [b] /\ placed cra cdec t b /\ named t b /\ measured cjys unit mf t b /\ flat b.
Definition jansky := 1.
Definition milli := / 1000.
(* Parkes: a row whose flux is no number is passed over *)
Definition parkes_row (t : list str) (l : list body) : Prop :=
  source 0 1 9 (in_column 11) jansky (27 / 10) t l \/
  (l = [] /\ (12 <= length t)%nat /\ exists jt, nth_error t 9 = Some jt /\ num jt = None).
(* Texas: with a spectral index where there is one *)
Definition txs_row (t : list str) (l : list body) : Prop :=
  exists b it, l = [b] /\ placed 0 1 t b /\ in_column 2 t b /\ measured 7 jansky (365 / 1000) t b /\
    nth_error t 10 = Some it /\ ((exists i, num it = Some i /\ b_spec b = Law i) \/ (num it = None /\ flat b)).
(* a PAPER source list has the colons already *)
Definition paper_row (t : list str) (l : list body) : Prop :=
  exists b, l = [b] /\ nth_error t 1 = Some (b_ra b) /\ nth_error t 2 = Some (b_dec b) /\ in_column 3 t b /\
    measured 4 jansky (15 / 100) t b /\ flat b.
(* Culgoora: flux densities at 160 and 80 MHz and the index between them. With an index: the flux
   at 160 MHz and that index. Without: the flux at 160 MHz or else that at 80 MHz, with index 0.
   When both are there but no index, one marked '<' is a limit and does not count *)
Definition limit (k : nat) (t : list str) : Prop := exists s, nth_error t k = Some ("<"%char :: s).
Definition value (k : nat) (t : list str) (v : option R) : Prop := exists s, nth_error t k = Some s /\ num s = v.
Definition culgoora_row (t : list str) (l : list body) : Prop :=
  (11 <= length t)%nat /\
  exists b s160 s80 i, l = [b] /\ placed 0 1 t b /\ in_column 2 t b /\ value 7 t s160 /\ value 9 t s80 /\ value 10 t i /\
  match i with
  | Some i => b_jys b = s160 /\ b_spec b = Law i /\ b_mfreq b = 16 / 100
  | None =>
    flat b /\
    let both := s160 <> None /\ s80 <> None in
    ((s160 <> None /\ ~ (both /\ limit 6 t) /\ b_jys b = s160 /\ b_mfreq b = 16 / 100) \/
     ((s160 = None \/ (both /\ limit 6 t)) /\ b_mfreq b = 8 / 100 /\
      ((~ (both /\ limit 8 t) /\ b_jys b = s80) \/ ((both /\ limit 8 t) /\ b_jys b = None))))
  end.
(* the words of a line *)
Inductive words_of : str -> list str -> Prop :=
| wo_nil a : blank a -> words_of a []
| wo_cons a w s ws : blank a -> w <> [] -> Forall (fun c => ~ blank_char c) w ->
    (forall c r, s = c :: r -> blank_char c) -> words_of s ws -> words_of (a ++ w ++ s) (w :: ws).
(* the MRT list: name, position and flux as the first words, after four lines of heading *)
Definition mrt_row (L : str) (b : body) : Prop :=
  exists jt j more, words_of L (b_name b :: b_ra b :: b_dec b :: jt :: more) /\ num jt = Some j /\ b_jys b = Some j /\ flat b /\ b_mfreq b = 15 / 100.
(* newlines taken off both ends *)
Definition newline : ascii := ascii_of_N 10.
Definition chomped (L L' : str) : Prop :=
  (exists a b, Forall (eq newline) a /\ Forall (eq newline) b /\ L = a ++ L' ++ b) /\
  (forall c r, L' = c :: r -> c <> newline) /\ (forall c r, L' = r ++ [c] -> c <> newline).
End Files.

(* ---- the Helmboldt files: lines in columns, names of nine characters beginning with J ---- *)
(* the characters of L in columns a, ..., b-1 that are there *)
Definition chars (L : str) (a b : nat) : str :=
  flat_map (fun i => match nth_error L i with Some c => [c] | None => [] end) (seq a (b - a)).
Definition of_name (k : str) (lines : list str) : list str :=
  filter (fun L => match L with c :: _ => Ascii.eqb c "J"%char | [] => false end
                   && if list_eq_dec ascii_dec (chars L 0 9) k then true else false) lines.
Definition any_name (lines : list str) (L : str) : Prop := In L (of_name (chars L 0 9) lines).
Section Helmboldt.
Variable num : str -> option R.
Definition numbers (s : str) (xs : list R) : Prop := exists ws, words_of s ws /\ Forall2 (fun w x => num w = Some x) ws xs.
(* F74, index above 300 MHz, extrapolated flux, then the parameters A, B, C, D of the curve. Without
   the curve (missing or -99) the flux and index; without an index, -99 *)
Inductive spectral : list R -> body -> Prop :=
| sp_flux a b : b_jys b = Some a -> b_spec b = Law (-99) -> spectral [a] b
| sp_index a i more b : (length more <= 2)%nat -> b_jys b = Some a -> b_spec b = Law i -> spectral (a :: i :: more) b
| sp_nofit a i e B more b : b_jys b = Some a -> b_spec b = Law i -> spectral (a :: i :: e :: -99 :: B :: more) b
| sp_fit a i e A B more b j : A <> -99 -> 0 < j -> ln j = A * ln 10 -> b_jys b = Some j -> b_spec b = Helm (Lst (B :: more)) ->
    spectral (a :: i :: e :: A :: B :: more) b.
(* a line of either file and the source of that name *)
Definition placed_by (L : str) (b : body) : Prop :=
  exists ra dec, trimmed (chars L 35 45) ra /\ trimmed (chars L 46 57) dec /\ colon_sep ra (b_ra b) /\ colon_sep dec (b_dec b).
Definition fitted_by (L : str) (b : body) : Prop := exists xs, numbers (chars L 13 62) xs /\ spectral xs b.
(* frequency (GHz in the catalogue, MHz in the file), flux and error of one measurement *)
Definition measures (L : str) (v : R * R * R) : Prop :=
  exists f s e, num (chars L 58 64) = Some f /\ num (chars L 65 73) = Some s /\ num (chars L 74 81) = Some e /\ v = (f * / 1000, s, e).
End Helmboldt.
