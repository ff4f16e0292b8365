(* SPEC: an item is a byte array: a size and, for each position, the byte last
   stored there (None: never stored; nothing is promised about it). *)
From Verif Require Import Base.
From Verif Require HioModel. (* only for the syntax of operations and results *)

Definition bytes := Z -> option Z.

Definition put (K : bytes) (a : Z) (bs : list Z) : bytes :=
  fun p => if (a <=? p) && (p <? a + Z.of_nat (length bs))
           then Some (nth (Z.to_nat (p - a)) bs 0) else K p.

Record array := Arr { a_size : Z; a_bytes : bytes }.

Definition spec_put (A : array) (a : Z) (bs : list Z) : array :=
  match bs with
  | [] => A
  | _ => Arr (Z.max (a_size A) (a + Z.of_nat (length bs))) (put (a_bytes A) a bs)
  end.

Definition spec_step (A : array) (o : HioModel.hop) : array :=
  match o with HioModel.HWrite _ a bs => spec_put A a bs | _ => A end.

(* l agrees with every known byte of a .. a+n-1 *)
Definition agrees (K : bytes) (a n : Z) (l : list Z) : Prop :=
  Z.of_nat (length l) = n /\
  forall k b, 0 <= k < n -> K (a + k) = Some b -> nth (Z.to_nat k) l 0 = b.

Definition expected (A : array) (o : HioModel.hop) (x : HioModel.hres) : Prop :=
  match o with
  | HioModel.HWrite _ _ _ => x = HioModel.HOk
  | HioModel.HRead _ a n =>
      if a + n >? a_size A then x = HioModel.HEof
      else exists l, x = HioModel.HBytes l /\ agrees (a_bytes A) a n l
  | HioModel.HGetSize => x = HioModel.HSize (a_size A)
  | HioModel.HReopen _ => x = HioModel.HOk
  end.

Fixpoint expected_all (A : array) (ops : list HioModel.hop) (xs : list HioModel.hres) : Prop :=
  match ops, xs with
  | [], [] => True
  | o :: ops', x :: xs' => expected A o x /\ expected_all (spec_step A o) ops' xs'
  | _, _ => False
  end.

(* The calls considered. s: every offset is a multiple of s, every element size divides s (1:
   byte access, arbitrary; 2, 4, 8: typed access); a write is a multiple of s long, or
   reaches the end of the item; whole elements are read and written.
   plain: the item had a file when the history started; otherwise it may
   live in memory (up to 64 bytes) and a write must not start past the end of an empty item nor
   further than one window out. Sizes stay below 2^31 - 16. *)
Definition valid_op (s : Z) (plain : bool) (A : array) (o : HioModel.hop) : Prop :=
  match o with
  | HioModel.HWrite sz a bs =>
      0 <= a /\ a + Z.of_nat (length bs) <= 2147483632 /\
      (sz | s) /\ 0 < sz /\ (s | a) /\ (sz | Z.of_nat (length bs)) /\
      ((s | Z.of_nat (length bs)) \/ a_size A <= a + Z.of_nat (length bs)) /\
      (a <= a_size A \/ (bs <> [] /\ (plain = true \/ 64 < a_size A \/ (0 < a_size A /\ a < 16384))))
  | HioModel.HRead sz a n => 0 <= a /\ 0 <= n /\ (sz | s) /\ 0 < sz /\ (s | a) /\ (sz | n)
  | _ => True
  end.

Fixpoint valid_all (s : Z) (plain : bool) (A : array) (ops : list HioModel.hop) : Prop :=
  match ops with
  | [] => True
  | o :: r => valid_op s plain A o /\ valid_all s plain (spec_step A o) r
  end.
