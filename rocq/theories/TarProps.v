(* C74: scripts/compress_uv.py. *)
From Coq Require Import Ascii String.
From Verif Require Import Base ScriptModel ScriptSpec ScriptProofs PrmProofs TarModel TarSpec.
Open Scope nat_scope.
Local Notation length := List.length.

Lemma same_true a b : same a b = true <-> a = b.
Proof. unfold same. destruct (list_eq_dec ascii_dec a b); split; congruence. Qed.
Lemma same_refl a : same a a = true.
Proof. apply same_true. reflexivity. Qed.
Lemma stripped_end r c : c <> "/"%char -> stripped (r ++ [c]) = r ++ [c].
Proof.
  intros N. unfold stripped. rewrite rev_unit. cbn [drop_slashes]. destruct (ceqb c "/"%char) eqn:E; [apply Ascii.eqb_eq in E; congruence|]. cbn [rev]. rewrite rev_involutive. reflexivity.
Qed.
Lemma stripped_plain i : plain i -> stripped i = i.
Proof.
  intros (NE & _ & _ & S). destruct (exists_last NE) as (r & c & ->). apply stripped_end. intros ->. exact (S r eq_refl).
Qed.
Lemma tarball_end i : tarball i = (i ++ list_ascii_of_string ".tar.bz") ++ ["2"%char].
Proof. unfold tarball. rewrite <- app_assoc. reflexivity. Qed.
Lemma stripped_tarball i : stripped (tarball i) = tarball i.
Proof. rewrite tarball_end. apply stripped_end. discriminate. Qed.
Lemma free_space i : plain i -> free " "%char i.
Proof. intros (_ & H & _) X. apply (proj1 (H _ X)). left. reflexivity. Qed.
Lemma free_tarball i : plain i -> free " "%char (tarball i).
Proof. intros P X. apply in_app_or in X as [X|X]; [exact (free_space i P X)|]. cbn in X. decompose [or] X; try discriminate; contradiction. Qed.
Lemma tarball_ne i : tarball i <> [].
Proof. rewrite tarball_end. intros E. apply app_eq_nil in E as [_ E]. discriminate. Qed.
Lemma tarball_neq i : tarball i <> i.
Proof. unfold tarball. intros E. assert (L : length (i ++ list_ascii_of_string ".tar.bz2") = length i) by congruence. rewrite app_length in L. cbn in L. lia. Qed.
Lemma words_one (i : str) : i <> [] -> free " "%char i -> words i = [i].
Proof. intros N F. unfold words. rewrite split_free by exact F. cbn [filter]. destruct (same i []) eqn:E; [apply same_true in E; congruence|reflexivity]. Qed.
Lemma words_two (a b : str) : a <> [] -> free " "%char a -> b <> [] -> free " "%char b -> words (a ++ " "%char :: b) = [a; b].
Proof.
  intros NA FA NB FB. unfold words. replace (split " "%char (a ++ " "%char :: b)) with [a; b].
  - cbn [filter]. destruct (same a []) eqn:E; [apply same_true in E; congruence|]. destruct (same b []) eqn:E'; [apply same_true in E'; congruence|]. reflexivity.
  - symmetry. change (a ++ " "%char :: b) with (join " "%char [a; b]). apply split_join; [discriminate|]. repeat constructor; assumption.
Qed.
Lemma starts_app p : forall r, starts p (p ++ r) = true.
Proof. induction p as [|a p IH]; intros r; [reflexivity|]. cbn [app starts]. rewrite IH. unfold ceqb. rewrite Ascii.eqb_refl. reflexivity. Qed.
Lemma starts_beneath i g : starts (i ++ ["/"%char]) g = true <-> beneath i g.
Proof.
  split.
  - intros H. apply starts_pre in H as (r & ->). exists r. rewrite <- app_assoc. reflexivity.
  - intros (r & ->). change ("/"%char :: r) with (["/"%char] ++ r). rewrite app_assoc. apply starts_app.
Qed.
Section P.
Variable T : Type.
Variable pack : list (str * T) -> T.
Variable unpack : T -> option (list (str * T)).
Variable trouble : (str -> option T) -> str -> list str -> option (option T).
Variable rest : (str -> option T) -> str -> list str -> option T.
Notation run := (run T pack unpack trouble rest).
Definition under (i g : str) : Prop := g = i \/ beneath i g.
Lemma rm1_under d i g : stripped i = i -> under i g -> rm1 T d i g = None.
Proof.
  intros S U. unfold rm1. rewrite S. destruct U as [->|B]; [rewrite same_refl; reflexivity|]. apply starts_beneath in B. rewrite B, Bool.orb_true_r. reflexivity.
Qed.
Lemma rm1_else d i g : stripped i = i -> rm1 T d i g = d g \/ under i g.
Proof.
  intros S. unfold rm1. rewrite S. destruct (same g i) eqn:E; [right; left; apply same_true; exact E|]. destruct (starts _ g) eqn:B; [right; right; apply starts_beneath; exact B|]. left. reflexivity.
Qed.
Lemma rm1_some d i g x : rm1 T d i g = Some x -> d g = Some x.
Proof. unfold rm1. destruct (_ || _)%bool; [discriminate|auto]. Qed.
Lemma put_same d f x : put T d f x f = x.
Proof. unfold put. rewrite same_refl. reflexivity. Qed.
Lemma put_other d f x g : g <> f -> put T d f x g = d g.
Proof. intros N. unfold put. destruct (same g f) eqn:E; [apply same_true in E; congruence|reflexivity]. Qed.
(* one path *)
Definition tidy (args : list str) (d : str -> option T) : Prop := forall i, In i args -> d (tarball i) = None -> forall f, beneath (tarball i) f -> d f = None.
Lemma run_step delete i r d : plain i ->
  (d (tarball i) <> None /\ run false delete (i :: r) d = run false delete r d) \/
  (exists x, d (tarball i) = None /\ d i = Some x /\ trouble d (tarball i) [i] = None /\
     run false delete (i :: r) d = run false delete r (if delete then rm1 T (put T d (tarball i) (Some (pack [(i, x)]))) i else put T d (tarball i) (Some (pack [(i, x)])))) \/
  (d (tarball i) = None /\ (d i = None \/ trouble d (tarball i) [i] <> None) /\ exists y, run false delete (i :: r) d = rm1 T (match y with None => d | _ => put T d (tarball i) y end) (tarball i)).
Proof.
  intros P. cbn [TarModel.run]. change (i ++ ext) with (tarball i). destruct (d (tarball i)) as [t|] eqn:E; [left; split; [discriminate|reflexivity]|]. right.
  rewrite words_two; [|apply tarball_ne|apply free_tarball, P|apply P|apply free_space, P]. rewrite (words_one i) by (apply P || apply free_space, P). rewrite (words_one (tarball i)) by (apply tarball_ne || apply free_tarball, P).
  cbn [tar_c members rm fold_left]. rewrite (stripped_plain i P). destruct (d i) as [x|] eqn:X.
  - destruct (trouble d (tarball i) [i]) as [y|] eqn:Y.
    + right. split; [reflexivity|]. split; [right; discriminate|]. exists y. destruct y; reflexivity.
    + left. exists x. split; [reflexivity|]. split; [reflexivity|]. split; [reflexivity|]. reflexivity.
  - right. split; [reflexivity|]. split; [left; reflexivity|]. exists (rest d (tarball i) [i]). destruct (rest d (tarball i) [i]); reflexivity.
Qed.
Lemma fails_same args d i y f : In i args -> tidy args d -> d (tarball i) = None -> rm1 T (match y with None => d | _ => put T d (tarball i) y end) (tarball i) f = d f.
Proof.
  intros I W E. destruct (rm1_else (match y with None => d | _ => put T d (tarball i) y end) (tarball i) f (stripped_tarball i)) as [H|H].
  - destruct (list_eq_dec ascii_dec f (tarball i)) as [->|N]; [rewrite rm1_under; [symmetry; exact E|apply stripped_tarball|left; reflexivity]|]. rewrite H. destruct y; [apply put_other; exact N|reflexivity].
  - rewrite rm1_under; [|apply stripped_tarball|exact H]. destruct H as [->|B]; [symmetry; exact E|symmetry; exact (W i I E f B)].
Qed.
Definition after (delete : bool) (d : str -> option T) (i : str) (t : T) : str -> option T :=
  if delete then rm1 T (put T d (tarball i) (Some t)) i else put T d (tarball i) (Some t).
Lemma packed delete d i r t : plain i -> apart (i :: r) -> tidy (i :: r) d -> d (tarball i) = None ->
  after delete d i t (tarball i) = Some t /\ (forall g z, after delete d i t g = Some z -> g <> tarball i -> d g = Some z) /\
  (forall g z, d g = Some z -> after delete d i t g = Some z \/ delete = true /\ under i g) /\ tidy r (after delete d i t).
Proof.
  intros Pi AP W E. set (d1 := after delete d i t).
  assert (A1 : forall a b, In a (i :: r) -> In b (i :: r) -> a <> tarball b) by (intros a b Ia Ib; apply (AP a b Ia Ib)).
  assert (A3 : forall a b, In a (i :: r) -> In b (i :: r) -> ~ beneath a (tarball b)) by (intros a b Ia Ib; apply (AP a b Ia Ib)).
  assert (A4 : forall a b, In a (i :: r) -> In b (i :: r) -> ~ beneath (tarball a) (tarball b)) by (intros a b Ia Ib; apply (AP a b Ia Ib)).
  assert (Ii : In i (i :: r)) by (left; reflexivity). assert (Ir : forall j, In j r -> In j (i :: r)) by (intros j J; right; exact J).
  assert (D1t : d1 (tarball i) = Some t).
  { unfold d1, after. destruct delete; [|apply put_same]. destruct (rm1_else (put T d (tarball i) (Some t)) i (tarball i) (stripped_plain i Pi)) as [H|[H|H]]; [rewrite H; apply put_same|destruct (tarball_neq i H)|].
    exfalso. exact (A3 i i Ii Ii H). }
  assert (D1s : forall g z, d1 g = Some z -> g <> tarball i -> d g = Some z).
  { intros g z H N. unfold d1, after in H. destruct delete; [apply rm1_some in H|]; rewrite put_other in H by exact N; exact H. }
  assert (D1k : forall g z, d g = Some z -> d1 g = Some z \/ delete = true /\ under i g).
  { intros g z H. assert (N : g <> tarball i) by (intros ->; congruence). unfold d1, after. destruct delete; [|left; rewrite put_other; assumption].
    destruct (rm1_else (put T d (tarball i) (Some t)) i g (stripped_plain i Pi)) as [K|K]; [left; rewrite K, put_other; assumption|right; split; [reflexivity|exact K]]. }
  split; [exact D1t|]. split; [exact D1s|]. split; [exact D1k|].
  intros j J H f B. destruct (d1 f) as [z|] eqn:Z; [|reflexivity]. exfalso.
  assert (N : f <> tarball i) by (intros ->; exact (A4 j i (Ir j J) Ii B)). apply D1s in Z; [|exact N].
  destruct (d (tarball j)) as [u|] eqn:U.
  - apply D1k in U as [U|(_ & [U|U])]; [congruence|exact (A1 i j Ii (Ir j J) (eq_sym U))|exact (A3 i j Ii (Ir j J) U)].
  - rewrite (W j (or_intror J) U f B) in Z. discriminate.
Qed.
Lemma kept delete args : forall d, Forall plain args -> apart args -> tidy args d ->
  (forall f x, d f = Some x -> run false delete args d f = Some x \/
     delete = true /\ exists i y, In i args /\ under i f /\ d i = Some y /\ run false delete args d (tarball i) = Some (pack [(i, y)])) /\
  (forall f x, d f = None -> run false delete args d f = Some x -> exists i y, In i args /\ f = tarball i /\ d i = Some y /\ x = pack [(i, y)]).
Proof.
  induction args as [|i r IH]; intros d P A W; [split; [intros f x E; left; exact E|intros f x E E'; cbn in E'; congruence]|].
  inversion P as [|? ? Pi Pr]; subst. assert (Ar : apart r) by (intros a b I J; apply A; right; assumption).
  destruct (run_step delete i r d Pi) as [(E & R)|[(x & E & X & _ & R)|(E & _ & y & R)]]; rewrite R.
  - destruct (IH d Pr Ar) as [IH1 IH2]; [intros j I; apply W; right; exact I|]. split.
    + intros f x0 F. destruct (IH1 f x0 F) as [H|(D & j & y & I & H)]; [left; exact H|]. right. split; [exact D|]. exists j, y. split; [right; exact I|exact H].
    + intros f x0 F G. destruct (IH2 f x0 F G) as (j & y & I & H). exists j, y. split; [right; exact I|exact H].
  - set (t := pack [(i, x)]) in *. change (if delete then rm1 T (put T d (tarball i) (Some t)) i else put T d (tarball i) (Some t)) with (after delete d i t).
    destruct (packed delete d i r t Pi A W E) as (D1t & D1s & D1k & W1). set (d1 := after delete d i t) in *.
    assert (A1 : forall a b, In a (i :: r) -> In b (i :: r) -> a <> tarball b) by (intros a b Ia Ib; apply (A a b Ia Ib)).
    assert (A3 : forall a b, In a (i :: r) -> In b (i :: r) -> ~ beneath a (tarball b)) by (intros a b Ia Ib; apply (A a b Ia Ib)).
    assert (Ii : In i (i :: r)) by (left; reflexivity). assert (Ir : forall j, In j r -> In j (i :: r)) by (intros j J; right; exact J).
    destruct (IH d1 Pr Ar W1) as [IH1 IH2].
    assert (TK : run false delete r d1 (tarball i) = Some t).
    { destruct (IH1 _ _ D1t) as [H|(_ & j & y & J & [H|H] & _)]; [exact H|destruct (A1 j i (Ir j J) Ii (eq_sym H))|destruct (A3 j i (Ir j J) Ii H)]. }
    assert (BK : forall j y, In j r -> d1 j = Some y -> d j = Some y).
    { intros j y J H. apply D1s; [exact H|]. exact (A1 j i (Ir j J) Ii). }
    split.
    + intros f z F. destruct (D1k f z F) as [H|(D & U)].
      * destruct (IH1 f z H) as [K|(D & j & y & J & U & Y & K)]; [left; exact K|]. right. split; [exact D|]. exists j, y. split; [right; exact J|]. split; [exact U|]. split; [apply BK; assumption|exact K].
      * right. split; [exact D|]. exists i, x. split; [left; reflexivity|]. split; [exact U|]. split; [exact X|exact TK].
    + intros f z F G. destruct (d1 f) as [w|] eqn:K.
      * destruct (list_eq_dec ascii_dec f (tarball i)) as [->|N]; [|apply D1s in K; [congruence|exact N]]. exists i, x. split; [left; reflexivity|]. split; [reflexivity|]. split; [exact X|]. rewrite TK in G. injection G as <-. reflexivity.
      * destruct (IH2 f z K G) as (j & y & J & H & Y & Z). exists j, y. split; [right; exact J|]. split; [exact H|]. split; [apply BK; assumption|exact Z].
  - split.
    + intros f z F. left. rewrite (fails_same (i :: r) d i y f (or_introl eq_refl) W E). exact F.
    + intros f z F G. rewrite (fails_same (i :: r) d i y f (or_introl eq_refl) W E) in G. congruence.
Qed.
Lemma sane_tidy args d : sane d -> tidy args d.
Proof. intros S i _ E f B. exact (S _ _ B E). Qed.
(* nothing is lost: what is no longer there is in a tarball; what is new is a whole tarball *)
Theorem C74_kept delete args d : Forall plain args -> apart args -> sane d ->
  (forall f x, d f = Some x -> run false delete args d f = Some x \/
     delete = true /\ exists i y, In i args /\ (f = i \/ beneath i f) /\ d i = Some y /\ run false delete args d (tarball i) = Some (pack [(i, y)])) /\
  (forall f x, d f = None -> run false delete args d f = Some x -> exists i y, In i args /\ f = tarball i /\ d i = Some y /\ x = pack [(i, y)]).
Proof. intros P A S. apply kept; [exact P|exact A|apply sane_tidy, S]. Qed.
Lemma tarball_inj i j : tarball i = tarball j -> i = j.
Proof. apply app_inv_tail. Qed.
Lemma all_done delete args : (forall d f ms, trouble d f ms = None) -> forall d, Forall plain args -> apart args -> tidy args d ->
  (forall i, In i args -> d i <> None \/ d (tarball i) <> None) ->
  forall i, In i args -> run false delete args d (tarball i) <> None /\ (delete = true -> d (tarball i) = None -> run false delete args d i = None).
Proof.
  intros NT. induction args as [|i r IH]; intros d P A W H j J; [destruct J|]. inversion P as [|? ? Pi Pr]; subst.
  assert (Ar : apart r) by (intros a b Ia Ib; apply A; right; assumption).
  assert (A1 : forall a b, In a (i :: r) -> In b (i :: r) -> a <> tarball b) by (intros a b Ia Ib; apply (A a b Ia Ib)).
  assert (A2 : forall a b, In a (i :: r) -> In b (i :: r) -> ~ beneath a b) by (intros a b Ia Ib; apply (A a b Ia Ib)).
  assert (A3 : forall a b, In a (i :: r) -> In b (i :: r) -> ~ beneath a (tarball b)) by (intros a b Ia Ib; apply (A a b Ia Ib)).
  assert (Ii : In i (i :: r)) by (left; reflexivity). assert (Ir : forall j, In j r -> In j (i :: r)) by (intros k K; right; exact K).
  assert (KT : forall d', tidy r d' -> d' (tarball i) <> None -> run false delete r d' (tarball i) <> None).
  { intros d' W' N. destruct (d' (tarball i)) as [t|] eqn:D; [|congruence]. destruct (proj1 (kept delete r d' Pr Ar W') _ _ D) as [K|(_ & k & y & K & [U|U] & _)]; [congruence|destruct (A1 k i (Ir k K) Ii (eq_sym U))|destruct (A3 k i (Ir k K) Ii U)]. }
  destruct (run_step delete i r d Pi) as [(E & R)|[(x & E & X & _ & R)|(E & [F|F] & _)]].
  - rewrite R. assert (W' : tidy r d) by (intros k K; apply W, Ir, K). destruct J as [<-|J]; [split; [apply KT; assumption|congruence]|]. apply IH; try assumption. intros k K. apply H, Ir, K.
  - change (if delete then rm1 T (put T d (tarball i) (Some (pack [(i, x)]))) i else put T d (tarball i) (Some (pack [(i, x)]))) with (after delete d i (pack [(i, x)])) in R.
    destruct (packed delete d i r (pack [(i, x)]) Pi A W E) as (D1t & D1s & D1k & W1). rewrite R. destruct (list_eq_dec ascii_dec j i) as [->|N].
    + split; [apply KT; [exact W1|congruence]|]. intros -> _. destruct (run false true r (after true d i (pack [(i, x)])) i) as [z|] eqn:Z; [|reflexivity]. exfalso.
      destruct (proj2 (kept true r _ Pr Ar W1) i z) as (k & y & K & U & _); [apply rm1_under; [apply stripped_plain, Pi|left; reflexivity]|exact Z|exact (A1 i k Ii (Ir k K) U)].
    + destruct J as [J|J]; [congruence|]. destruct (IH _ Pr Ar W1) with (i := j) as [Q1 Q2]; [|exact J|].
      * intros k K. destruct (d (tarball k)) as [u|] eqn:U.
        -- right. destruct (D1k _ _ U) as [V|(_ & [V|V])]; [congruence|destruct (A1 i k Ii (Ir k K) (eq_sym V))|destruct (A3 i k Ii (Ir k K) V)].
        -- destruct (H k (Ir k K)) as [V|V]; [|congruence]. destruct (d k) as [u|] eqn:DK; [|congruence]. destruct (D1k _ _ DK) as [Y|(_ & [Y|Y])]; [left; congruence|right; rewrite Y; congruence|destruct (A2 i k Ii (Ir k K) Y)].
      * split; [exact Q1|]. intros D E'. apply Q2; [exact D|]. destruct (after delete d i (pack [(i, x)]) (tarball j)) as [z|] eqn:Z; [|reflexivity]. apply D1s in Z; [congruence|]. intros V. apply N, tarball_inj, V.
  - destruct (H i Ii); congruence.
  - rewrite NT in F. congruence.
Qed.
(* when tar goes through, all have their tarballs, and with -d those just packed are gone *)
Theorem C74_all delete args d : (forall d f ms, trouble d f ms = None) -> Forall plain args -> apart args -> sane d -> (forall i, In i args -> d i <> None) ->
  forall i, In i args -> run false delete args d (tarball i) <> None /\ (delete = true -> d (tarball i) = None -> run false delete args d i = None).
Proof. intros NT P A S H. apply all_done; [exact NT|exact P|exact A|apply sane_tidy, S|]. intros i I. left. apply H, I. Qed.
(* what is packed is what is unpacked *)
Theorem C74_unpacked i d x : (forall l, unpack (pack l) = Some l) -> (forall d f ms, trouble d f ms = None) -> plain i -> d i = Some x -> d (tarball i) = None ->
  run true false [tarball i] (run false true [i] d) i = Some x.
Proof.
  intros U NT P X E. destruct (run_step true i [] d P) as [(N & _)|[(x' & _ & X' & _ & R)|(_ & [F|F] & _)]]; [congruence| |congruence|rewrite NT in F; congruence].
  rewrite R. cbn [TarModel.run]. rewrite (words_one (tarball i)) by (apply tarball_ne || apply free_tarball, P). cbn [tar_x].
  assert (Q : rm1 T (put T d (tarball i) (Some (pack [(i, x')]))) i (tarball i) = Some (pack [(i, x')])).
  { destruct (rm1_else (put T d (tarball i) (Some (pack [(i, x')]))) i (tarball i) (stripped_plain i P)) as [H|[H|(r & H)]]; [rewrite H; apply put_same|destruct (tarball_neq i H)|].
    unfold tarball in H. apply app_inv_head in H. discriminate. }
  rewrite Q, U. cbn [fold_left fst snd]. rewrite (stripped_plain i P), put_same. congruence.
Qed.
(* finding: of a directory given with a slash at its end the tarball is made inside, and -d deletes both *)
Theorem C74_slash_refuted i d x : (forall d f ms, trouble d f ms = None) -> plain i -> d i = Some x -> d (i ++ lit "/.tar.bz2") = None ->
  run false true [i ++ lit "/"] d i = None /\ forall f y, run false true [i ++ lit "/"] d f = Some y -> d f = Some y /\ f <> i /\ ~ beneath i f.
Proof.
  intros NT P X E. cbn [TarModel.run]. rewrite <- app_assoc. change (lit "/" ++ ext) with (lit "/.tar.bz2"). rewrite E.
  assert (FS : free " "%char (i ++ lit "/")) by (intros I; apply in_app_or in I as [I|[I|[]]]; [exact (free_space i P I)|discriminate]).
  assert (FT : free " "%char (i ++ lit "/.tar.bz2")) by (intros I; apply in_app_or in I as [I|I]; [exact (free_space i P I)|cbn in I; decompose [or] I; try discriminate; contradiction]).
  assert (N1 : i ++ lit "/" <> []) by (destruct i; discriminate). assert (N2 : i ++ lit "/.tar.bz2" <> []) by (destruct i; discriminate).
  assert (SS : stripped (i ++ lit "/") = i).
  { unfold stripped. change (lit "/") with ["/"%char]. rewrite rev_unit. cbn [drop_slashes]. change (ceqb "/" "/") with true. cbv iota. apply (stripped_plain i P). }
  rewrite words_two, words_one by assumption. cbn [tar_c members rm fold_left]. rewrite SS, X, NT. cbn [TarModel.run]. unfold rm1. rewrite SS. split; [rewrite same_refl; reflexivity|].
  intros f y H. destruct (same f i) eqn:S; [discriminate|]. destruct (starts (i ++ ["/"%char]) f) eqn:B; [discriminate|]. cbn [orb] in H.
  assert (NB : ~ beneath i f) by (intros V; apply starts_beneath in V; congruence). split; [|split; [intros ->; rewrite same_refl in S; discriminate|exact NB]].
  rewrite put_other in H; [exact H|]. intros ->. apply NB. exists (lit ".tar.bz2"). reflexivity.
Qed.
(* finding: of a path with a space the part before it is deleted, without -d too, when no tarball bears the name of the rest *)
Theorem C74_space_refuted delete a b d : plain a -> plain b -> d (a ++ " "%char :: tarball b) = None -> d (tarball b) = None -> run false delete [a ++ " "%char :: b] d a = None.
Proof.
  intros PA PB E F. cbn [TarModel.run]. rewrite <- app_assoc. cbn [app]. change (b ++ ext) with (tarball b). rewrite E.
  replace (words ((a ++ " "%char :: tarball b) ++ " "%char :: a ++ " "%char :: b)) with [a; tarball b; a; b].
  - cbn [tar_c members]. rewrite stripped_tarball, F. cbv beta iota zeta. rewrite words_two; [|apply PA|apply free_space, PA|apply tarball_ne|apply free_tarball, PB]. cbn [rm fold_left].
    match goal with |- rm1 T (rm1 T ?e a) (tarball b) a = None => destruct (rm1 T (rm1 T e a) (tarball b) a) eqn:Z; [|reflexivity]; apply rm1_some in Z; rewrite rm1_under in Z; [discriminate|apply stripped_plain, PA|left; reflexivity] end.
  - unfold words. replace (split " "%char ((a ++ " "%char :: tarball b) ++ " "%char :: a ++ " "%char :: b)) with [a; tarball b; a; b].
    + cbn [filter]. assert (NE : forall w, w <> [] -> same w [] = false) by (intros w N; destruct (same w []) eqn:S; [apply same_true in S; congruence|reflexivity]). rewrite !NE by (apply PA || apply PB || apply tarball_ne). reflexivity.
    + symmetry. rewrite <- app_assoc. change (a ++ (" "%char :: tarball b) ++ " "%char :: a ++ " "%char :: b) with (join " "%char [a; tarball b; a; b]). apply split_join; [discriminate|]. repeat constructor; (apply free_space; assumption) || apply free_tarball; assumption.
Qed.
End P.
Print Assumptions C74_kept.
Print Assumptions C74_all.
Print Assumptions C74_unpacked.
Print Assumptions C74_slash_refuted.
Print Assumptions C74_space_refuted.
(* two files given together; the first is packed and deleted, at the second tar fails and it stays *)
Example C74_ex : let args := [lit "a.uv"; lit "b.uv"] in
  let d := fun f => if same f (lit "a.uv") then Some (lit "A") else if same f (lit "b.uv") then Some (lit "B") else None in
  let trouble := fun (_ : str -> option str) f (_ : list str) => if same f (lit "b.uv.tar.bz2") then Some (Some (lit "half")) else None in
  let e := TarModel.run str (flat_map (fun m => fst m ++ lit ":" ++ snd m)) (fun _ => None) trouble (fun _ _ _ => None) false true args d in
  (Forall plain args /\ apart args /\ sane d) /\ e (lit "a.uv") = None /\ e (lit "a.uv.tar.bz2") = Some (lit "a.uv:A") /\ e (lit "b.uv") = Some (lit "B") /\ e (lit "b.uv.tar.bz2") = None.
Proof.
  cbv zeta. split; [|repeat split; vm_compute; reflexivity]. split; [|split].
  - repeat (apply Forall_cons; [split; [discriminate|split; [|split]]|]); [| | | | | |apply Forall_nil].
    1,4: intros c I; cbn in I; decompose [or] I; subst; try contradiction; (split; [vm_compute; intuition discriminate|vm_compute; lia]).
    1,3: intros r; discriminate.
    1,2: intros r E; apply (f_equal (@rev ascii)) in E; rewrite rev_unit in E; discriminate.
  - intros i j [<-|[<-|[]]] [<-|[<-|[]]]; (split; [discriminate|split; [|split]]); intros (r & E); discriminate.
  - intros p f (r & ->) _. destruct (same (p ++ "/"%char :: r) (lit "a.uv")) eqn:E; [|destruct (same (p ++ "/"%char :: r) (lit "b.uv")) eqn:E'; [|reflexivity]];
      [apply same_true in E; assert (I : In "/"%char (lit "a.uv")) by (rewrite <- E; apply in_or_app; right; left; reflexivity)|apply same_true in E'; assert (I : In "/"%char (lit "b.uv")) by (rewrite <- E'; apply in_or_app; right; left; reflexivity)]; cbn in I; decompose [or] I; try discriminate; contradiction.
Qed.
