(* SPEC: what modmap.py is to put in a map. *)
From Coq Require Import Reals.
From Verif Require Import Base CleanSpec HpxModel HpxSpec.
Open Scope R_scope.

(* an ellipse in azimuth and latitude about (ra, dec): half axes a1 and a2, turned by th *)
Definition in_ellipse (a1 a2 th : R) (c x : R * R) : Prop :=
  a1 <> 0 /\ a2 <> 0 /\ exists u v, u * u + v * v <= 1 /\
  fst x - fst c = a1 * u * cos th + a2 * v * sin th /\ snd x - snd c = a2 * v * cos th - a1 * u * sin th.
(* ps is the pixels a source is spread over: those with the centre in the ellipse or, if there are none, that of the point *)
Definition spread (n : Z) (inside : Z -> Prop) (point : Z) (ps : list Z) : Prop :=
  NoDup ps /\ ((forall p, In p ps <-> (0 <= p < 12 * (n * n))%Z /\ inside p) /\ ps <> [] \/ (forall p, (0 <= p < 12 * (n * n))%Z -> ~ inside p) /\ ps = [point]).
(* the mean a pixel of an averaged map shows *)
Definition shown (k : skymap) (h : hpm) (p : Z) : R :=
  let w := px (h_map (k_wgt k)) p in if Rlt_dec 0 w then px (h_map h) p / w else px (h_map h) p.
(* sources given by pixels, strength and index, added to k give k' *)
Definition has (p : Z) (ps : list Z) : bool := existsb (Z.eqb p) ps.
Definition received (p : Z) (srcs : list (list Z * R * R)) : R :=
  rsum srcs (fun '(ps, strength, _) => if has p ps then strength / INR (length ps) else 0).
Definition covering (p : Z) (srcs : list (list Z * R * R)) : list (list Z * R * R) := filter (fun '(ps, _, _) => has p ps) srcs.
Definition added (n : Z) (srcs : list (list Z * R * R)) (k k' : skymap) : Prop :=
  length (k_ind k') = length (k_ind k) /\
  forall p, (0 <= p < 12 * (n * n))%Z ->
    shown k' (k_map k') p = shown k (k_map k) p + received p srcs /\
    (px (h_map (k_wgt k')) p = match covering p srcs with [] => px (h_map (k_wgt k)) p | _ => 1 end) /\
    forall j h h', nth_error (k_ind k) j = Some h -> nth_error (k_ind k') j = Some h' ->
      px (h_map h') p = match j, rev (covering p srcs) with O, (_, _, index) :: _ => index | _, _ => px (h_map h) p end.
(* the value at a direction by the weights of the pixels about it *)
Definition between {Dir} (weights : Z -> scheme -> Dir -> list (Z * R)) (h : hpm) (d : Dir) : R :=
  rsum (weights (h_nside h) (h_scheme h) d) (fun '(q, w) => px (h_map h) q * w).
