From Coq Require Import String.
From Verif Require Import Base UvModel UvSpec UvProofs UvProofs2 UvProofs3 UvProofs4 UvProofs5 UvProps
  PipeModel PipeSpec PipeProofs PipeProofs2 PipeProofs3 PipeProofs4 PipeProps BaselineModel CmdModel CmdSpec CmdProofs CmdProofs2.
Ltac Zify.zify_post_hook ::= idtac.
Open Scope Z_scope.
Local Notation length := List.length.

(* ---------- spectra ---------- *)
Definition all8 (d : list (list Z)) : Prop := Forall (fun c => length c = 8%nat) d.

Lemma concat_len d : all8 d -> length (concat d) = (8 * length d)%nat.
Proof. intros F. induction F as [|c d H F IH]; [reflexivity|]. cbn [concat length]. rewrite app_length, IH, H. lia. Qed.

Lemma concat_nth d : all8 d -> forall k, (k < length d)%nat -> firstn 8 (skipn (8 * k) (concat d)) = nth k d [].
Proof.
  intros F. induction F as [|c d H F IH]; intros k Hk; [cbn in Hk; lia|]. cbn [concat]. destruct k as [|k].
  - cbn [nth]. change (8 * 0)%nat with 0%nat. rewrite skipn_O, firstn_app, H, Nat.sub_diag, firstn_O, app_nil_r.
    rewrite <- H. apply firstn_all.
  - cbn [nth length] in *. rewrite skipn_app, H. replace (8 * S k - 8)%nat with (8 * k)%nat by lia.
    rewrite skipn_all2 by (rewrite H; lia). cbn [app]. apply IH. lia.
Qed.

Lemma cells_len n c : length (cells n c) = Z.to_nat n.
Proof. unfold cells. now rewrite map_length, seq_length. Qed.
Lemma cells_nth n c k : (k < Z.to_nat n)%nat -> nth k (cells n c) [] = firstn 8 (skipn (8 * k) c).
Proof.
  intros H. unfold cells. rewrite (nth_indep _ _ ((fun k => firstn 8 (skipn (8 * k) c)) 0%nat)) by (rewrite map_length, seq_length; exact H).
  rewrite (map_nth (fun k => firstn 8 (skipn (8 * k) c))). rewrite seq_nth by exact H. reflexivity.
Qed.
Lemma cells_8 n c : zlen c = 8 * n -> all8 (cells n c).
Proof.
  intros H. unfold all8, cells. apply Forall_forall. intros x Hx. apply in_map_iff in Hx as (k & <- & Hk). apply in_seq in Hk.
  rewrite firstn_length, skipn_length. unfold zlen in H. lia.
Qed.


Lemma bcast_same {A B C} (f : A -> B -> C) l m : length l = length m ->
  bcast f l m = Ok (map (fun p => f (fst p) (snd p)) (combine l m)).
Proof. intros H. unfold bcast. now rewrite H, Nat.eqb_refl. Qed.
Lemma zip_nth {A B C} (f : A -> B -> C) l m k a b c : length l = length m -> (k < length l)%nat ->
  nth k (map (fun p => f (fst p) (snd p)) (combine l m)) c = f (nth k l a) (nth k m b).
Proof.
  intros H Hk. rewrite (nth_indep _ c ((fun p => f (fst p) (snd p)) (a, b))) by (rewrite map_length, combine_length; lia).
  rewrite (map_nth (fun p => f (fst p) (snd p))). rewrite combine_nth by exact H. reflexivity.
Qed.
Lemma zip_len {A B C} (f : A -> B -> C) l m : length l = length m -> length (map (fun p => f (fst p) (snd p)) (combine l m)) = length l.
Proof. intros H. rewrite map_length, combine_length. lia. Qed.
Lemma zip_8 {A} (f : A -> list Z -> list Z) l m : all8 m -> length l = length m -> (forall a b, length b = 8%nat -> length (f a b) = 8%nat) ->
  all8 (map (fun p => f (fst p) (snd p)) (combine l m)).
Proof.
  intros F L H. apply Forall_forall. intros x Hx. apply in_map_iff in Hx as ([a b] & <- & Hp). apply H. cbn [snd].
  apply in_combine_r in Hp. unfold all8 in F. rewrite Forall_forall in F. apply F. exact Hp.
Qed.
Lemma zip_88 (f : list Z -> list Z -> list Z) l m : all8 l -> all8 m -> length l = length m -> (forall a b, length a = 8%nat -> length b = 8%nat -> length (f a b) = 8%nat) ->
  all8 (map (fun p => f (fst p) (snd p)) (combine l m)).
Proof.
  intros F G L H. apply Forall_forall. intros x Hx. apply in_map_iff in Hx as ([a b] & <- & Hp). cbn [fst snd]. unfold all8 in F, G. rewrite Forall_forall in F, G.
  apply H; [apply F; eapply in_combine_l; exact Hp|apply G; eapply in_combine_r; exact Hp].
Qed.

Lemma where0_ok g d : all8 d -> length g = length d -> exists d', where0 g d = Ok d' /\ all8 d' /\ length d' = length d /\
  forall k, (k < length d)%nat -> nth k d' [] = if nth k g false then nth k d [] else zero8.
Proof.
  intros F L. unfold where0. rewrite (bcast_same _ g d L). eexists. split; [reflexivity|]. split; [|split].
  - apply (zip_8 (fun (g : bool) (c : list Z) => if g then c else zero8)); [exact F|exact L|]. intros [] b Hb; [exact Hb|reflexivity].
  - rewrite (zip_len (fun (g : bool) (c : list Z) => if g then c else zero8)) by exact L. exact L.
  - intros k Hk. apply (zip_nth (fun (g : bool) (c : list Z) => if g then c else zero8) g d k false [] []); [exact L|lia].
Qed.

(* a record with a new spectrum *)
Lemma spa_good nsize x d g : good_rec TReal nsize x -> r_n x = nsize -> all8 d -> zlen d = nsize -> zlen g = nsize ->
  good_out nsize x (same_preamble_as x d g).
Proof.
  intros (G1 & G2 & G3 & G4 & G5 & G6 & G7 & G8 & G9 & G10 & G11) N D L1 L2.
  unfold good_out, same_preamble_as. cbn [r_u r_v r_w r_t r_bl r_n r_corr r_fl r_tscale].
  do 5 (split; [reflexivity|]). split; [|exact L1].
  unfold good_rec. cbn [r_u r_v r_w r_t r_bl r_n r_corr r_fl r_tscale]. rewrite L1, <- N.
  do 6 (split; [assumption|]). split; [lia|]. split; [exact G8|]. split; [|split; [lia|exact G11]].
  unfold zlen in *. rewrite concat_len by exact D. cbn [ext] in *. lia.
Qed.
Lemma spa_chan x d g c : all8 d -> 0 <= c < zlen d -> chan (same_preamble_as x d g) c = nth (Z.to_nat c) d [].
Proof. intros D H. unfold chan, same_preamble_as. cbn [r_corr]. apply concat_nth; [exact D|]. unfold zlen in H. lia. Qed.
Lemma chan_cell x c : 0 <= c < r_n x -> nth (Z.to_nat c) (cells (r_n x) (r_corr x)) [] = chan x c.
Proof. intros H. apply cells_nth. lia. Qed.

(* equal records have the same channels *)
Lemma same_rec_data feq8 feq4 a b : same_rec feq8 feq4 a b -> r_n a = r_n b /\ r_corr a = r_corr b /\ r_fl a = r_fl b.
Proof. intros (_ & _ & _ & _ & _ & A & _ & B & C). auto. Qed.
Lemma same_chan a b c : r_corr a = r_corr b -> chan a c = chan b c.
Proof. unfold chan. now intros ->. Qed.
Lemma same_good a b c : r_fl a = r_fl b -> good a c = good b c.
Proof. unfold good. now intros ->. Qed.

(* ---------- from the function's answers to the statement about the output ---------- *)
Lemma nth_all_some {A} (ys : list A) i : nth i (map Some ys) None = nth_error ys i.
Proof. revert i. induction ys as [|y ys IH]; intros [|i]; cbn; auto. Qed.

Lemma kept_all {A} ys (ds : list A) : forall k, length ds = length (skipn k ys) ->
  kept_rows (map Some ys) k ds = combine ds (skipn k ys).
Proof.
  induction ds as [|d ds IH]; intros k L; cbn [kept_rows combine]; [reflexivity|].
  destruct (nth_error ys k) as [y|] eqn:E.
  - rewrite nth_all_some, E. assert (S1 : skipn k ys = y :: skipn (S k) ys).
    { clear -E. revert k E. induction ys as [|a ys IH]; intros [|k] E; cbn in *; try discriminate; [injection E as ->; reflexivity|]. apply IH. exact E. }
    rewrite S1. cbn [combine]. f_equal. apply IH. rewrite S1 in L. apply (f_equal pred) in L. exact L.
  - exfalso. apply nth_error_None in E. rewrite skipn_all2 in L by exact E. discriminate.
Qed.

Section Fin.
Variable feq8 feq4 : list Z -> list Z -> bool.
Variable add1000 : list Z -> list Z.

Lemma same_place_rec d x y y' nsize : host_ok feq8 feq4 add1000 TReal -> same_rec feq8 feq4 (fst d) x -> r_n x = nsize ->
  good_out nsize x y -> same_rec feq8 feq4 y y' -> same_place feq8 feq4 (fst (d : row)) y' /\ zlen (r_fl y') = r_n y' /\ zlen (r_corr y') = 8 * r_n y'.
Proof.
  intros [_ S8 S4 T8 T4 _] (A1 & A2 & A3 & A4 & A5 & A6 & _) N (U1 & U2 & U3 & U4 & U5 & U6 & U7) (B1 & B2 & B3 & B4 & B5 & B6 & B7 & B8 & B9).
  rewrite U1 in B1. rewrite U2 in B2. rewrite U3 in B3. rewrite U4 in B4. rewrite U5 in B5.
  pose proof (same8_trans feq8 S8 T8) as K8. pose proof (same8_trans feq4 S4 T4) as K4.
  split; [|split].
  - unfold same_place. do 4 (split; [eapply K8; eassumption|]). split; [eapply K4; eassumption|]. congruence.
  - rewrite <- B9, <- B6. destruct U6 as (_ & _ & _ & _ & _ & _ & _ & _ & _ & G & _). exact G.
  - rewrite <- B8, <- B6. destruct U6 as (_ & _ & _ & _ & _ & _ & _ & _ & G & _). rewrite G. cbn [ext]. lia.
Qed.

Lemma finish {A} (rowof : A -> row) (W : A -> urec -> Prop) (rows : list A) nsize (kr : list (row * urec)) w :
  host_ok feq8 feq4 add1000 TReal ->
  Forall2 (fun a q => rowof a = fst q /\ (exists x, same_rec feq8 feq4 (fst (fst q)) x /\ r_n x = nsize /\ good_out nsize x (snd q)) /\
     (forall y', same_rec feq8 feq4 (snd q) y' -> W a y')) rows kr ->
  (exists res last, reads nsize (S (length kr)) (uv_open w) = (res ++ [(last, RdEof)])%list /\
       Forall2 (fun q o => exists y, same_rec feq8 feq4 (snd q) y /\ snd o = RdRec y /\
           (forall n t b, user_name n \/ n = "nchan"%string -> look (snd (fst q)) n = Some (t, b) -> uvgetvr (fst o) n = Some b) /\
           (forall n, user_name n -> look (snd (fst q)) n = None -> uvgetvr (fst o) n = None) /\
           (forall n, preamble_name n -> uvgetvr (fst o) n = Some (pre_val n y))) kr res) ->
  rewritten feq8 feq4 rowof W rows nsize w.
Proof.
  intros H F (res & last & R1 & R2). exists res, last. rewrite (Forall2_length _ _ _ F). split; [exact R1|].
  eapply Forall2_mp; [|exact (Forall2_comp _ _ _ _ _ F R2)].
  intros a o (q & (Q1 & (x & X1 & X2 & X3) & Q3) & y & Y1 & Y2 & Y3 & Y4 & Y5). exists y. split; [|apply Q3; exact Y1].
  destruct (same_place_rec (fst q) x (snd q) y nsize H X1 X2 X3 Y1) as (P1 & P2 & P3).
  unfold in_place_of. rewrite Q1. split; [exact Y2|]. split; [exact P1|]. split; [exact P2|]. split; [exact P3|]. auto.
Qed.
End Fin.
