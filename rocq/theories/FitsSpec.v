(* What a user of to_fits and from_fits may expect, in terms of the arguments and the file. *)
From Coq Require Import Ascii String.
From Verif Require Import Base ScriptModel ScriptSpec FitsModel SrcSpec ImgSpec.
Local Open Scope Z_scope.
Local Notation length := List.length.

(* lower case, by the table *)
Definition capitals : list ascii := list_ascii_of_string "ABCDEFGHIJKLMNOPQRSTUVWXYZ".
Definition smalls : list ascii := list_ascii_of_string "abcdefghijklmnopqrstuvwxyz".
Definition small (c : ascii) : ascii :=
  match find (fun p => Ascii.eqb (fst p) c) (combine capitals smalls) with Some p => snd p | None => c end.
(* t is s without its trailing blanks *)
Definition rtrimmed (s t : list ascii) : Prop :=
  (exists n, s = t ++ repeat " "%char n) /\ forall u, t <> u ++ [" "%char].
(* an axis name that begins with a word, in any case of letters *)
Definition axis_is (p : string) (ax : list ascii) : Prop := exists rest, map small ax = list_ascii_of_string p ++ rest.
Definition ascii_text (s : list ascii) : Prop := Forall (fun c => 32 <= Z.of_N (N_of_ascii c) <= 126) s.

Section Spec.
Variable V : Type.
Variables (zero one : V) (of_nat : nat -> V) (opp : V -> V) (pos finite : V -> bool) (veqb : V -> V -> bool) (reread : V -> V).
(* numbers in cards: zero is written exactly, the sign is kept, a number read is written exactly *)
Definition card_numbers : Prop :=
  veqb zero zero = true /\ veqb one one = true /\ finite zero = true /\ finite one = true /\ reread zero = zero /\ reread one = one /\
  (forall x, reread (reread x) = reread x) /\ (forall x, finite (reread x) = finite x) /\ (forall x, pos (reread x) = pos x) /\
  (forall x, pos x = true -> pos (opp x) = false) /\ (forall x, finite x = true -> finite (opp x) = true) /\ pos zero = false /\ (forall n, finite (of_nat n) = true).
(* the value read where v was written *)
Inductive back : val V -> val V -> Prop :=
| back_s s t : rtrimmed s t -> back (VS V s) (VS V t)
| back_n x : back (VN V x) (VN V (reread x)).
(* a value a card can hold *)
Definition holds (v : val V) : Prop := match v with VS _ s => ascii_text s | VN _ x => finite x = true end.

(* the east is to the left: the right ascension step is negative *)
Definition leftward (d : V) : V := if pos d then opp d else d.
Inductive told (a : args V) : string -> item V -> Prop :=
| told_object w : back (a_object V a) w -> told a "object" (Val V w)
| told_telescope w : back (a_telescope V a) w -> told a "telescope" (Val V w)
| told_instrument w : back (a_instrument V a) w -> told a "instrument" (Val V w)
| told_observer w : back (a_observer V a) w -> told a "observer" (Val V w)
| told_origin w : back (a_origin V a) w -> told a "origin" (Val V w)
| told_obs_date w : back (a_obs_date V a) w -> told a "obs_date" (Val V w)
| told_cur_date w : back (a_cur_date V a) w -> told a "cur_date" (Val V w)
| told_epoch w : back (a_epoch V a) w -> told a "epoch" (Val V w)
| told_axes l : Forall2 (fun ax t => rtrimmed (map small ax) t) (a_axes V a) l -> told a "axes" (Axes V l)
| told_ra w : Exists (axis_is "ra") (a_axes V a) -> back (VN V (a_ra V a)) w -> told a "ra" (Val V w)
| told_d_ra w : Exists (axis_is "ra") (a_axes V a) -> back (VN V (leftward (a_d_ra V a))) w -> told a "d_ra" (Val V w)
| told_dec w : Exists (axis_is "dec") (a_axes V a) -> back (VN V (a_dec V a)) w -> told a "dec" (Val V w)
| told_d_dec w : Exists (axis_is "dec") (a_axes V a) -> back (VN V (a_d_dec V a)) w -> told a "d_dec" (Val V w)
| told_freq w : Exists (axis_is "freq") (a_axes V a) -> back (VN V (a_freq V a)) w -> told a "freq" (Val V w)
| told_d_freq w : Exists (axis_is "freq") (a_axes V a) -> back (VN V (a_d_freq V a)) w -> told a "d_freq" (Val V w).
(* a dictionary with exactly these entries *)
Definition says (kw : list (string * item V)) (P : string -> item V -> Prop) : Prop :=
  NoDup (map fst kw) /\ forall k v, In (k, v) kw <-> P k v.
(* the axes of an image that are longer than one pixel, in order *)
Inductive squeezed : list nat -> list nat -> Prop :=
| sq_nil : squeezed [] []
| sq_one l r : squeezed l r -> squeezed (1%nat :: l) r
| sq_keep n l r : n <> 1%nat -> squeezed l r -> squeezed (n :: l) (n :: r).
(* what the cards of an axis refer to *)
Definition axis_values (a : args V) (ax : list ascii) (v d : V) : Prop :=
  ((axis_is "ra" ax \/ axis_is "glon" ax) /\ v = a_ra V a /\ d = leftward (a_d_ra V a)) \/
  ((axis_is "dec" ax \/ axis_is "glat" ax) /\ v = a_dec V a /\ d = a_d_dec V a) \/
  (axis_is "freq" ax /\ v = a_freq V a /\ d = a_d_freq V a) \/
  (axis_is "stokes" ax /\ v = one /\ d = one) \/
  (Forall (fun p => ~ axis_is p ax) ["ra"; "glon"; "dec"; "glat"; "freq"; "stokes"]%string /\ v = zero /\ d = zero).
(* every value given, by name *)
Definition given (a : args V) : list (val V) :=
  [a_object V a; a_telescope V a; a_instrument V a; a_observer V a; a_origin V a; a_obs_date V a; a_cur_date V a; a_epoch V a; a_bscale V a; a_bzero V a]
  ++ map (VS V) (a_axes V a).
Definition used (a : args V) (v : V) : Prop := exists ax d, In ax (a_axes V a) /\ (axis_values a ax v d \/ axis_values a ax d v).
End Spec.

(* an element of an array in C order *)
Fixpoint position (shape idx : list nat) : nat :=
  match shape, idx with n :: r, i :: q => (i * fold_right Nat.mul 1%nat r + position r q)%nat | _, _ => O end.
Definition inside (shape idx : list nat) : Prop := Forall2 (fun n i => (i < n)%nat) shape idx.

(* ---- the history in the header ---- *)
Definition lead5 : list ascii := list_ascii_of_string "#     ".
Definition lead10 : list ascii := list_ascii_of_string "#          ".
(* the cards of one line: its words in order, wrapped; a line beginning with # is wrapped wider
   than a card and cut *)
Inductive line_cards_are : list ascii -> list (list ascii) -> Prop :=
| lc_short s : (length s <= 1)%nat -> line_cards_are s []
| lc_words s ws ps lines : (1 < length s)%nat -> hd_error s <> Some "#"%char ->
    words_of s ws -> Forall2 (cut 57) ws ps -> laid_out 70 lead5 lead10 (concat ps) lines -> Forall (fun l => length l < 70)%nat lines ->
    line_cards_are s lines
| lc_comment s ws ps lines cards : (1 < length s)%nat -> hd_error s = Some "#"%char ->
    words_of s ws -> Forall2 (cut 77) ws ps -> laid_out 80 [sp] [sp] (concat ps) lines -> Forall2 (cut 72) lines cards ->
    line_cards_are s (concat cards).
(* the cards of a text of several lines, each stripped of blanks at both ends *)
Definition history_is (text : list ascii) (cards : list (list ascii)) : Prop :=
  exists lines stripped per, text = join newline lines /\ Forall (fun l => ~ In newline l) lines /\ Forall2 trimmed lines stripped /\
    Forall2 line_cards_are stripped per /\ cards = concat per.
