(* Lemmas about maps in files. *)
From Coq Require Import Reals Ascii String.
From Verif Require Import Base ScriptModel ScriptSpec ScriptProofs PrmProofs HpxModel HpxSpec HpxProps SrcSpec SrcProofs2 ImgModel ImgSpec ImgProps FitsModel FitsSpec FitsProofs FitsProofs4 MapfModel MapfSpec.
Local Open Scope Z_scope.
Local Notation length := List.length.

Lemma set_map_full n h h0 s : full n h -> set_map h0 (h_map h) s = Ok (Hpm n s (h_map h) (h_interp h0)).
Proof.
  intros [[k [K ->]] [_ L]]. destruct (proj2 (C43_set_map h0 (h_map h) s)) as [h' E]; [exists k; auto|].
  rewrite E. f_equal. unfold set_map, npix2nside in E. rewrite L in E.
  replace (12 * (2 ^ k * 2 ^ k) / 12) with (2 ^ k * 2 ^ k) in E by (symmetry; rewrite (Z.mul_comm 12); apply Z.div_mul; lia).
  rewrite Z.sqrt_square in E by (apply Z.pow_nonneg; lia). destruct (npix (2 ^ k) =? _); [|discriminate]. cbn [bind] in E. destruct (pow2 _); [|discriminate]. injection E as <-. reflexivity.
Qed.
Lemma scheme_of_ordering s : scheme_of (ordering s) = Some s.
Proof. destruct s; reflexivity. Qed.
Lemma scheme_of_iff o s : scheme_of o = Some s <-> exists rest, o = ordering s ++ rest.
Proof.
  unfold scheme_of. split.
  - destruct (streq (firstn 4 o) (lit "RING")) eqn:E; [intros [= <-]|destruct (streq (firstn 4 o) (lit "NEST")) eqn:E2; [intros [= <-]|discriminate]];
      exists (skipn 4 o); [apply streq_spec in E|apply streq_spec in E2]; rewrite <- (firstn_skipn 4 o) at 1; f_equal; assumption.
  - intros [rest ->]. destruct s; reflexivity.
Qed.
Lemma fill_full n l : length l = n -> fill n l = l.
Proof. intros <-. unfold fill. rewrite Nat.sub_diag. apply app_nil_r. Qed.
Lemma new_table_same cast cols n : Forall (fun c => length (snd c) = n) cols -> cols <> [] -> new_table cast cols = map (fun '(k, l) => (k, map cast l)) cols.
Proof.
  intros H N. unfold new_table.
  assert (E : fold_right (fun c m => Nat.max (length (snd c)) m) O cols = n).
  { destruct cols as [|c r]; [contradiction|]. clear N. assert (G : (fold_right (fun c m => Nat.max (length (snd c)) m) O r <= n)%nat).
    { inversion H as [|x y A B]; subst x y. clear - B. induction B; cbn; lia. }
    inversion H; subst. cbn. lia. }
  rewrite E. clear E N. induction H as [|[k l] r A B IH]; [reflexivity|]. cbn [map]. rewrite IH, fill_full by (rewrite map_length; exact A). reflexivity.
Qed.
Lemma full_len n h : full n h -> length (h_map h) = Z.to_nat (12 * (n * n)).
Proof. intros [_ [_ L]]. unfold lenZ in L. lia. Qed.
Lemma number_snd {A} (l : list A) : forall i, map snd (number i l) = l.
Proof. induction l as [|x l IH]; intros i; cbn; [reflexivity|]. rewrite IH. reflexivity. Qed.
Lemma number_in {A} (l : list A) : forall i p, In p (number i l) -> In (snd p) l.
Proof. intros i p I. rewrite <- (number_snd l i). apply in_map. exact I. Qed.
Lemma number_nth {A} (l : list A) : forall i j, nth_error (number i l) j = option_map (fun x => (i + j, x)%nat) (nth_error l j).
Proof.
  induction l as [|x l IH]; intros i [|j]; cbn; try reflexivity; [rewrite Nat.add_0_r; reflexivity|].
  rewrite IH. rewrite <- Nat.add_succ_comm. reflexivity.
Qed.
Lemma new_hpm_map n s i : h_map (new_hpm n s i) = repeat 0%R (Z.to_nat (12 * (n * n))).
Proof. reflexivity. Qed.
Lemma new_full n s i : (exists k, 0 <= k /\ n = 2 ^ k) -> full n (new_hpm n s i).
Proof. intros K. split; [exact K|]. split; [reflexivity|]. unfold lenZ. rewrite new_hpm_map, repeat_length. nia. Qed.

(* the table a map writes *)
Definition cols_of (cast : R -> R) (k : skymap) : list (colname * list R) :=
  (Signal, map cast (h_map (k_map k))) :: (Weights, map cast (h_map (k_wgt k))) :: map (fun '(n, i) => (SpIndex n, map cast (h_map i))) (number 0 (k_ind k)).
Lemma map_cols cast n s k : alike n s k ->
  new_table cast ((Signal, h_map (k_map k)) :: (Weights, h_map (k_wgt k)) :: ind_cols (k_ind k)) = cols_of cast k.
Proof.
  intros [A [_ [B [_ C]]]]. rewrite (new_table_same cast _ (Z.to_nat (12 * (n * n)))).
  - unfold cols_of, ind_cols. cbn [map]. rewrite map_map. do 2 f_equal. apply map_ext. intros [j h]. reflexivity.
  - repeat constructor; cbn; [exact (full_len _ _ A)|exact (full_len _ _ B)|]. apply Forall_forall. intros c I. apply in_map_iff in I. destruct I as [[j h] [<- I]]. cbn.
    apply number_in in I. rewrite Forall_forall in C. apply full_len, (C h I).
  - discriminate.
Qed.
Lemma cast_full cast n h : full n h -> full n (with_map h (map cast (h_map h))).
Proof. intros [A [B C]]. split; [exact A|]. split; [exact B|]. unfold lenZ in *. cbn. rewrite map_length. exact C. Qed.
Lemma from_col_full cast n s t h h0 : full n h -> t_ordering t = Some (ordering s) ->
  from_col t (map cast (h_map h)) h0 = Ok (Hpm n s (map cast (h_map h)) (h_interp h0)).
Proof.
  intros F E. unfold from_col. rewrite E, scheme_of_ordering. exact (set_map_full n (with_map h (map cast (h_map h))) h0 s (cast_full _ _ _ F)).
Qed.
(* reading the table *)
Lemma map_read cast n s k f name k0 hist :
  alike n s k -> f name = Some (table_of (k_map k) (cols_of cast k) hist) ->
  map_from_fits f name k0 = Ok (Sky (Hpm n s (map cast (h_map (k_map k))) (h_interp (k_map k0))) (Hpm n s (map cast (h_map (k_wgt k))) (h_interp (k_wgt k0)))
     (k_ind k0 ++ map (fun h => Hpm n s (map cast (h_map h)) false) (k_ind k)), (n, s)).
Proof.
  intros [A [SA [B [SB C]]]] E. unfold map_from_fits. rewrite E. cbn [t_cols table_of cols_of snd].
  set (t := table_of _ _ _). assert (O : t_ordering t = Some (ordering s)) by (unfold t; cbn; rewrite SA; reflexivity).
  rewrite (from_col_full cast n s t _ _ A O). cbn [bind h_nside h_scheme]. rewrite (from_col_full cast n s t _ _ B O). cbn [bind skipn].
  assert (X : forall l j, Forall (fun h => full n h /\ h_scheme h = s) l ->
     mapM (fun c => from_col t (snd c) (new_hpm n s false)) (map (fun '(m, i) => (SpIndex m, map cast (h_map i))) (number j l)) = Ok (map (fun h => Hpm n s (map cast (h_map h)) false) l)).
  { induction l as [|h l IH]; intros j F; [reflexivity|]. inversion F as [|x y [F1 F2] F3]; subst x y. cbn [number map mapM snd].
    rewrite (from_col_full cast n s t _ _ F1 O). cbn [bind]. rewrite IH by exact F3. reflexivity. }
  rewrite X by exact C. reflexivity.
Qed.
Lemma hist_ok0 text : (forall c, In c text -> printable c = true \/ c = nl) -> exists cards, history_cards 0 text = Ok cards.
Proof.
  intros H. unfold history_cards. destruct text as [|c0 t0]; [exists []; reflexivity|]. set (text := c0 :: t0) in *.
  assert (X : forall l, Forall (free nl) l -> (forall s c, In s l -> In c s -> printable c = true \/ c = nl) ->
     exists per, map_res (fun h => line_cards 0 (strip h)) l = Ok per).
  { induction l as [|s l IH]; intros F G; [exists []; reflexivity|]. inversion F as [|x y F1 F2]; subst.
    destruct IH as [per E1]; [exact F2|intros t c I; apply G; right; exact I|].
    assert (P : forallb printable (strip s) = true) by (apply strip_printable; [intros c I; apply (G s); [left; reflexivity|exact I]|exact F1]).
    assert (L : exists cs, line_cards 0 (strip s) = Ok cs).
    { unfold line_cards. destruct (length (strip s) <=? 1)%nat; [eauto|]. destruct (begins "#" (strip s)).
      - destruct (C36_word_wrap (strip s) 80 0 0 []) as (ws & ps & lines & W & Q & E & LO & _); [vm_compute; discriminate|]. rewrite E. cbn [bind].
        rewrite (laid_printable _ _ _ _ _ _ _ _ W Q LO) by (auto; reflexivity). eauto.
      - destruct (C36_word_wrap (strip s) 70 5 10 (lit "#")) as (ws & ps & lines & W & Q & E & LO & _); [vm_compute; discriminate|]. rewrite E. cbn [bind].
        rewrite (laid_printable _ _ _ _ _ _ _ _ W Q LO) by (auto; reflexivity). eauto. }
    destruct L as [cs E3]. exists (cs :: per). cbn [map_res]. rewrite E3. cbn [bind]. rewrite E1. reflexivity. }
  destruct (X (split nl text)) as [per E].
  - apply split_pieces.
  - intros s c I J. apply H. rewrite <- (join_split nl text). revert I. generalize (split nl text). intros l I. clear - I J.
    induction l as [|x [|y r] IH]; [destruct I|destruct I as [->|[]]; exact J|]. cbn [join]. apply in_or_app. destruct I as [->|I]; [left; exact J|right; right; apply IH, I].
  - rewrite E. cbn [bind]. eauto.
Qed.
