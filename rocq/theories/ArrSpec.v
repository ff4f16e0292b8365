(* What is claimed of antenna arrays, in terms of positions, directions and frequencies. *)
From Coq Require Import Reals String.
From Verif Require Import Base CleanModel ImgModel GeoModel GeoSpec ArrModel.
Open Scope R_scope.
Local Notation length := List.length.
(* unit vectors at right ascension a and declination d, counted from the meridian: towards growing right
   ascension, towards growing declination, towards the source *)
Definition east (a : R) : vec := (- sin a, cos a, 0).
Definition north (a d : R) : vec := (- sin d * cos a, - sin d * sin a, cos d).
Definition towards (a d : R) : vec := (cos d * cos a, cos d * sin a, sin d).
(* a separation seen from there: (u, v, w) in units of length *)
Definition seen_from (a d : R) (bl : vec) : vec := (dot bl (east a), dot bl (north a d), dot bl (towards a d)).
Definition pos_of (r : arr) (i : nat) : vec := match nth_error (r_ants r) i with Some a => a_pos a | None => (0, 0, 0) end.
Definition separation (r : arr) (i j : nat) : vec := vadd (pos_of r j) (vscale (-1) (pos_of r i)).
Definition conj (z : C) : C := (fst z, - snd z).
Definition modulus2 (z : C) : R := fst z * fst z + snd z * snd z.

(* everything one can do to an array *)
Inductive op :=
| OSelect (ks : option (list Z)) | OUpdate | OEphem (t : R) | OTime (t : R) | OPol (p : option (xy * xy))
| OCache (eqs : list vec) (jys : list (list R)) (mf : sa) (ion : sa * sa) (shp : sa * sa * sa)
| OResponse (i j : nat) | OSim (i j : nat) | OPoint (i : nat) (az alt tw : R) | OAntSelect (i : nat) (ks : option (list Z)).
Section Run.
Variable sid j1 : R -> R.
Definition step (r : arr) (o : op) : arr :=
  match o with
  | OSelect ks => fst (select_chans r ks) | OUpdate => fst (arr_update r) | OEphem t => set_ephemtime sid r t | OTime t => set_jultime sid r t
  | OPol p => fst (set_active_pol r p) | OCache e j m n s => fst (sim_cache r e j m n s) | OResponse i j => fst (bm_response r i j)
  | OSim i j => fst (sim sid j1 r i j) | OPoint i a b c => fst (point_ant r i a b c) | OAntSelect i ks => fst (ant_select r i ks)
  end.
Definition run (l : list op) (r : arr) : arr := fold_left step l r.
End Run.
(* every antenna's tables are those of its own polynomials at the same active frequencies fs *)
Definition gain_at (a : ant) (f : R) : C := (a_amp a * polyval (a_bpr a) f, a_amp a * polyval (a_bpi a) f).
Definition ant_in_step (r : arr) (fs : list R) (a : ant) : Prop :=
  (exists b, nth_error (r_beams r) (a_beam a) = Some b /\ b_afreqs b = fs) /\
  a_phsoff a = map (polyval (a_phspoly a)) fs /\ a_gain a = map (gain_at a) fs.
Definition in_step (r : arr) (fs : list R) : Prop := r_ants r <> [] /\ forall a, In a (r_ants r) -> ant_in_step r fs a.
(* what the phase of a source is made of, in turns: geometry, refraction that falls with the square of the
   frequency, and the difference of the antennas' phases *)
Definition turns (bl : vec) (dra ddec mf : R) (f : R) : R :=
  let '(x, y, z) := bl in z * f + (dra * (x * f) + ddec * (y * f)) * mf ^ 2 / f ^ 2.
Definition offset_at (r : arr) (i j : nat) (f : R) : R :=
  match nth_error (r_ants r) i, nth_error (r_ants r) j with Some a, Some b => polyval (a_phspoly b) f - polyval (a_phspoly a) f | _, _ => 0 end.
(* channel k of a band of n: negative ones count from the end *)
Definition chan_ok {A} (l : list A) (k : Z) : Prop := (- Z.of_nat (length l) <= k < Z.of_nat (length l))%Z.
Definition chan_at {A} (d : A) (l : list A) (k : Z) : A := nth (Z.to_nat (k mod Z.of_nat (length l))%Z) l d.
Definition chans_of (b : beam) (active : option (list Z)) : list Z := match active with Some ks => ks | None => map Z.of_nat (seq 0 (length (b_freqs b))) end.
(* a beam, an antenna, with other active frequencies and nothing else different *)
Definition tuned_beam (b : beam) (active : option (list Z)) : beam :=
  {| b_freqs := b_freqs b; b_chans := chans_of b active; b_afreqs := map (chan_at 0 (b_freqs b)) (chans_of b active); b_pat := b_pat b |}.
Definition tuned (a : ant) (fs : list R) : ant :=
  {| a_pos := a_pos a; a_beam := a_beam a; a_phspoly := a_phspoly a; a_phsoff := map (polyval (a_phspoly a)) fs; a_bpr := a_bpr a; a_bpi := a_bpi a;
     a_amp := a_amp a; a_gain := map (gain_at a) fs; a_rotx := a_rotx a; a_roty := a_roty a |}.
Definition has_beam (r : arr) (a : ant) (b : beam) : Prop := nth_error (r_beams r) (a_beam a) = Some b.
Definition wf (r : arr) : Prop := forall a, In a (r_ants r) -> exists b, has_beam r a b.
Definition rest (r : arr) := (r_lat r, r_date r, r_eq2now r, r_eq2top r, r_cache r, r_pol r).
(* a source as given to sim_cache: equatorial vector, flux at each active frequency, frequency at which its
   refraction was measured, refraction, shape *)
Record source := { q_v : vec; q_jys : list R; q_mf : R; q_dra : R; q_ddec : R; q_a1 : R; q_a2 : R; q_th : R }.
(* arguments that describe the sources qs: one number for all of them, or an array *)
Definition given (eqs : list vec) (jys : list (list R)) (mf : sa) (ion : sa * sa) (shp : sa * sa * sa) (qs : list source) : Prop :=
  let n := length qs in
  eqs = map q_v qs /\ jys = map q_jys qs /\ spread n mf = Val (map q_mf qs) /\ spread n (fst ion) = Val (map q_dra qs) /\ spread n (snd ion) = Val (map q_ddec qs) /\
  spread n (fst (fst shp)) = Val (map q_a1 qs) /\ spread n (snd (fst shp)) = Val (map q_a2 qs) /\ spread n (snd shp) = Val (map q_th qs).
Definition holds (m : mat) (s : simc) (qs : list source) : Prop :=
  given (c_eqs s) (c_jys s) (c_mfreq s) (c_iref s) (c_shp s) qs /\ c_top s = map (fun q => mv m (q_v q)) qs.
Definition is_up (m : mat) (q : source) : bool := Rltb 0 (third (mv m (q_v q))).
Definition csum (l : list C) : C := fold_right cadd (0, 0) l.
Section Vis.
Variable sid j1 : R -> R.
(* how much of the flux is left when the disk of the source is resolved *)
Definition disk (q : source) (u v : R) : R :=
  let ru := q_a1 q * (u * cos (q_th q) - v * sin (q_th q)) in let rv := q_a2 q * (u * sin (q_th q) + v * cos (q_th q)) in
  let x := 2 * PI * sqrt (ru ^ 2 + rv ^ 2) in if Req_EM_T x 0 then 1 else 2 * j1 x / x.
Definition ant_of (r : arr) (i : nat) : ant := nth i (r_ants r) {| a_pos := (0, 0, 0); a_beam := 0; a_phspoly := []; a_phsoff := []; a_bpr := []; a_bpi := []; a_amp := 0; a_gain := []; a_rotx := ident; a_roty := ident |}.
(* response of antenna i's beam, polarisation p, at frequency f towards the topocentric vector t *)
Definition beam_at (r : arr) (i : nat) (p : xy) (f : R) (t : vec) : C :=
  match nth_error (r_beams r) (a_beam (ant_of r i)) with
  | Some b => b_pat b f (mv (match p with PX => a_rotx (ant_of r i) | PY => a_roty (ant_of r i) end) t)
  | None => (0, 0)
  end.
Definition bl_to (r : arr) (i j : nat) (q : source) : vec := let '(ra, dec) := eq2radec (q_v q) in seen_from (ra - lst sid r) dec (separation r i j).
(* what source q of flux I adds to the visibility of antennas i and j at frequency f *)
Definition contribution (r : arr) (m : mat) (p1 p2 : xy) (i j : nat) (q : source) (f I : R) : C :=
  let '(u, v, w) := vscale f (bl_to r i j q) in
  let t := mv m (q_v q) in
  let gain := cmul (gain_at (ant_of r j) f) (conj (gain_at (ant_of r i) f)) in
  let resp := cmul (beam_at r j p2 f t) (conj (beam_at r i p1 f t)) in
  let fringe := conj (cexp_turn (turns (bl_to r i j q) (q_dra q) (q_ddec q) (q_mf q) f + offset_at r i j f)) in
  cmul (cscale I (cmul gain resp)) (cscale (disk q u v) fringe).
Definition visibility (r : arr) (m : mat) (p1 p2 : xy) (i j : nat) (qs : list source) (fs : list R) (k : nat) : C :=
  csum (map (fun q => contribution r m p1 p2 i j q (nth k fs 0) (nth k (q_jys q) 0)) qs).
End Vis.
(* kinds of operations *)
Definition is_time o := match o with OTime _ => true | _ => false end.
Definition is_ephem o := match o with OEphem _ => true | _ => false end.
Definition is_cache o := match o with OCache _ _ _ _ _ => true | _ => false end.
Definition is_use o := match o with OResponse _ _ | OSim _ _ => true | _ => false end.
Definition is_response o := match o with OResponse _ _ => true | _ => false end.
Definition is_tune o := match o with OSelect _ | OAntSelect _ _ | OPoint _ _ _ _ => true | _ => false end.
Definition without (f : op -> bool) (l : list op) : Prop := Forall (fun o => f o = false) l.
(* The sources of the last call of sim_cache in the history ops are qs, the last set_jultime before it was to
   t, no time has been set since by set_jultime, and antennas have not been changed since responses to these
   sources were first computed. *)
Definition sees (ops : list op) (t : R) (qs : list source) : Prop :=
  exists before mid eqs jys mf ion shp after1 after2,
  ops = before ++ OTime t :: mid ++ OCache eqs jys mf ion shp :: after1 ++ after2 /\ given eqs jys mf ion shp qs /\
  without is_time (mid ++ after1 ++ after2) /\ without is_cache (after1 ++ after2) /\ without is_use after1 /\ without is_tune after2.
