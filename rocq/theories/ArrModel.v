(* Antenna arrays: geometry and phasing (aipy/phs.py), gains, beams and simulation (aipy/amp.py).
   Simplifications: exact reals; antenna indices are non-negative; the antennas of an array are
   distinct objects (their beams may be shared); arrays that numpy would broadcast because they
   have one element are broadcast here too where lists meet (bcast), but per-source options
   (fluxes aside) are either one number or one number per source; what ephem computes (sidereal
   time of a date, altitude of a body) and the Bessel function j1 are parameters. *)
From Coq Require Import Reals String.
From Verif Require Import Base CleanModel ImgModel GeoModel.
Open Scope R_scope.
Local Notation length := List.length.

(* what a call gives: a value or an exception *)
Inductive exc := IndexError | AttributeError | KeyError | TypeError | RuntimeError | ValueError | PointingError | AssertionError | ZeroDivision.
Inductive out (A : Type) := Val (a : A) | Exc (e : exc).
Arguments Val {A} a. Arguments Exc {A} e.
Definition obind {A B} (x : out A) (f : A -> out B) : out B := match x with Val a => f a | Exc e => Exc e end.
Definition get {A} (l : list A) (i : nat) : out A := match nth_error l i with Some x => Val x | None => Exc IndexError end.
Fixpoint omap {A B} (f : A -> out B) (l : list A) : out (list B) :=
  match l with [] => Val [] | x :: r => obind (f x) (fun y => obind (omap f r) (fun s => Val (y :: s))) end.
(* numpy arithmetic on two one-dimensional arrays *)
Definition bcast {A B D} (f : A -> B -> D) (a : list A) (b : list B) : out (list D) :=
  if Nat.eqb (length a) (length b) then Val (zip_with f a b) else
  match a, b with [x], _ => Val (map (f x) b) | _, [y] => Val (map (fun x => f x y) a) | _, _ => Exc ValueError end.
(* numpy.polyval: highest power first *)
Definition polyval (p : list R) (x : R) : R := fold_left (fun y c => y * x + c) p 0.
(* ndarray.take with mode 'raise' *)
Definition take1 {A} (l : list A) (k : Z) : out A :=
  (let n := Z.of_nat (length l) in if (k <? - n) || (n <=? k) then Exc IndexError else get l (Z.to_nat (if k <? 0 then k + n else k)))%Z.
Definition take {A} (l : list A) (ks : list Z) : out (list A) := omap (take1 l) ks.
(* a float or an array with one entry per source *)
Inductive sa := Sc (x : R) | Ar (l : list R).
Definition spread (n : nat) (x : sa) : out (list R) :=
  match x with Sc v => Val (repeat v n) | Ar l => if Nat.eqb (length l) n then Val l else Exc ValueError end.
(* ndarray.compress *)
Fixpoint compress {A} (cond : list bool) (l : list A) : out (list A) :=
  match cond, l with
  | [], _ => Val []
  | true :: _, [] => Exc IndexError
  | false :: c, [] => compress c []
  | true :: c, x :: r => obind (compress c r) (fun s => Val (x :: s))
  | false :: c, _ :: r => compress c r
  end.
Definition compress_sa (cond : list bool) (x : sa) : out sa := match x with Sc v => Val (Sc v) | Ar l => obind (compress cond l) (fun l => Val (Ar l)) end.

(* phs.py:163-181 Beam; pat is what response computes for one active frequency and one direction
   (amp.py:120-222: each class computes it from afreqs, or from tables its update method makes
   from afreqs) *)
Record beam := { b_freqs : list R; b_chans : list Z; b_afreqs : list R; b_pat : R -> vec -> C }.
(* phs.py:189-214, amp.py:230-270 Antenna; the beam is an object that antennas may share *)
Record ant := { a_pos : vec; a_beam : nat; a_phspoly : list R; a_phsoff : list R; a_bpr : list R; a_bpi : list R; a_amp : R;
                a_gain : list C; a_rotx : mat; a_roty : mat }.
(* amp.py:346-357 what sim_cache keeps *)
Record simc := { c_jys : list (list R); c_mfreq : sa; c_eqs : list vec; c_top : list vec; c_shp : sa * sa * sa; c_iref : sa * sa }.
Inductive xy := PX | PY.
Definition xy_eqb (p q : xy) : bool := match p, q with PX, PX | PY, PY => true | _, _ => false end.
(* attribute _cache: not there, None, or a dictionary with the six entries of sim_cache (or none of
   them) and beam responses by antenna and polarisation, each source by frequency *)
Definition bmcache := list (nat * list (xy * list (list C))).
Inductive cstate := CUnset | CNone | CDict (s : option simc) (bm : bmcache).
Record arr := { r_beams : list beam; r_ants : list ant; r_lat : R; r_date : R; r_eq2zen : mat; r_eq2now : option mat; r_eq2top : option mat;
                r_cache : cstate; r_pol : option (xy * xy) }.
Definition with_beams r x := {| r_beams := x; r_ants := r_ants r; r_lat := r_lat r; r_date := r_date r; r_eq2zen := r_eq2zen r; r_eq2now := r_eq2now r; r_eq2top := r_eq2top r; r_cache := r_cache r; r_pol := r_pol r |}.
Definition with_ants r x := {| r_beams := r_beams r; r_ants := x; r_lat := r_lat r; r_date := r_date r; r_eq2zen := r_eq2zen r; r_eq2now := r_eq2now r; r_eq2top := r_eq2top r; r_cache := r_cache r; r_pol := r_pol r |}.
Definition with_cache r x := {| r_beams := r_beams r; r_ants := r_ants r; r_lat := r_lat r; r_date := r_date r; r_eq2zen := r_eq2zen r; r_eq2now := r_eq2now r; r_eq2top := r_eq2top r; r_cache := x; r_pol := r_pol r |}.

Fixpoint upd {A} (l : list A) (i : nat) (x : A) : list A :=
  match l, i with [], _ => [] | _ :: r, O => x :: r | y :: r, S k => y :: upd r k x end.

(* phs.py:171-181 Beam.select_chans, update: the channels are stored before they are used *)
Definition set_chans (b : beam) (ks : list Z) : beam := {| b_freqs := b_freqs b; b_chans := ks; b_afreqs := b_afreqs b; b_pat := b_pat b |}.
Definition beam_update (b : beam) : beam * out unit :=
  match take (b_freqs b) (b_chans b) with
  | Val f => ({| b_freqs := b_freqs b; b_chans := b_chans b; b_afreqs := f; b_pat := b_pat b |}, Val tt)
  | Exc e => (b, Exc e)
  end.
Definition arange (n : nat) : list Z := map Z.of_nat (seq 0 n).
Definition beam_select (b : beam) (active : option (list Z)) : beam * out unit :=
  let ks := match active with None => arange (length (b_freqs b)) | Some ks => ks end in beam_update (set_chans b ks).
(* phs.py:167-170 Beam(freqs) *)
Definition new_beam (freqs : list R) (pat : R -> vec -> C) : beam :=
  {| b_freqs := freqs; b_chans := arange (length freqs); b_afreqs := freqs; b_pat := pat |}.

(* phs.py:202-208, amp.py:241-247 Antenna.update *)
Definition ant_update (bs : list beam) (a : ant) : out ant :=
  obind (get bs (a_beam a)) (fun b =>
  Val {| a_pos := a_pos a; a_beam := a_beam a; a_phspoly := a_phspoly a;
         a_phsoff := map (polyval (a_phspoly a)) (b_afreqs b);
         a_bpr := a_bpr a; a_bpi := a_bpi a; a_amp := a_amp a;
         a_gain := map (fun f => cscale (a_amp a) (polyval (a_bpr a) f, polyval (a_bpi a) f)) (b_afreqs b);
         a_rotx := a_rotx a; a_roty := a_roty a |}).
Definition ant_update_at (r : arr) (i : nat) : arr * out unit :=
  match get (r_ants r) i with
  | Exc e => (r, Exc e)
  | Val a => match ant_update (r_beams r) a with Exc e => (r, Exc e) | Val a' => (with_ants r (upd (r_ants r) i a'), Val tt) end
  end.
(* phs.py:198-201 Antenna.select_chans *)
Definition ant_select (r : arr) (i : nat) (active : option (list Z)) : arr * out unit :=
  match get (r_ants r) i with
  | Exc e => (r, Exc e)
  | Val a =>
    match get (r_beams r) (a_beam a) with
    | Exc e => (r, Exc e)
    | Val b => let '(b', o) := beam_select b active in
      let r := with_beams r (upd (r_beams r) (a_beam a) b') in
      match o with Exc e => (r, Exc e) | Val _ => ant_update_at r i end
    end
  end.
Fixpoint each (f : arr -> nat -> arr * out unit) (l : list nat) (r : arr) : arr * out unit :=
  match l with [] => (r, Val tt) | i :: l => let '(r, o) := f r i in match o with Exc e => (r, Exc e) | Val _ => each f l r end end.
(* phs.py:226-229,265-267 AntennaArray.update *)
Definition arr_update (r : arr) : arr * out unit :=
  let r := {| r_beams := r_beams r; r_ants := r_ants r; r_lat := r_lat r; r_date := r_date r; r_eq2zen := eq2top_m 0 (r_lat r);
              r_eq2now := r_eq2now r; r_eq2top := r_eq2top r; r_cache := r_cache r; r_pol := r_pol r |} in
  each ant_update_at (seq 0 (length (r_ants r))) r.
(* phs.py:268-271 AntennaArray.select_chans *)
Definition select_chans (r : arr) (active : option (list Z)) : arr * out unit :=
  let '(r, o) := each (fun r i => ant_select r i active) (seq 0 (length (r_ants r))) r in
  match o with Exc e => (r, Exc e) | Val _ => arr_update r end.

(* amp.py:248-260 Antenna.set_pointing *)
Definition pointing_m (az alt twist : R) : mat :=
  mm (mm (rot_m (- twist) (0, 0, 1)) (rot_m (alt - PI / 2) (0, 1, 0))) (rot_m (- (PI / 2 - az)) (0, 0, 1)).
Definition set_pointing (a : ant) (az alt twist : R) : ant :=
  let rot := pointing_m az alt twist in
  {| a_pos := a_pos a; a_beam := a_beam a; a_phspoly := a_phspoly a; a_phsoff := a_phsoff a; a_bpr := a_bpr a; a_bpi := a_bpi a;
     a_amp := a_amp a; a_gain := a_gain a; a_rotx := rot; a_roty := mm (rot_m (- (PI / 2)) (0, 0, 1)) rot |}.
Definition point_ant (r : arr) (i : nat) (az alt twist : R) : arr * out unit :=
  match get (r_ants r) i with Exc e => (r, Exc e) | Val a => (with_ants r (upd (r_ants r) i (set_pointing a az alt twist)), Val tt) end.
(* phs.py:189-197, amp.py:230-243 Antenna(x, y, z, beam, ...) *)
Definition new_ant (bs : list beam) (pos : vec) (b : nat) (phsoff bpr bpi : list R) (amp az alt twist : R) : out ant :=
  ant_update bs (set_pointing {| a_pos := pos; a_beam := b; a_phspoly := phsoff; a_phsoff := []; a_bpr := bpr; a_bpi := bpi; a_amp := amp;
                                 a_gain := []; a_rotx := eq2top_m 0 0; a_roty := eq2top_m 0 0 |} az alt twist).
(* phs.py:222-229,253-257, amp.py:282-284 AntennaArray(location, ants) at a date *)
Definition new_arr (lat date : R) (bs : list beam) (ants : list ant) : arr :=
  {| r_beams := bs; r_ants := ants; r_lat := lat; r_date := date; r_eq2zen := eq2top_m 0 lat; r_eq2now := None; r_eq2top := None;
     r_cache := CUnset; r_pol := None |}.

(* A source given to get_baseline and others: a string; a body with the altitude and map of its last
   compute and its own ionref and srcshape; one or more equatorial vectors *)
Record body := { s_ra : R; s_dec : R; s_alt : R; s_map : mat; s_ionref : R * R; s_shape : R * R * R; s_mfreq : R }.
Inductive srcarg := SStr (s : string) | SBody (b : body) | SVecs (l : list vec).
Definition vsub (a b : vec) : vec := let '(a1, a2, a3) := a in let '(b1, b2, b3) := b in (a1 - b1, a2 - b2, a3 - b3).
Definition cexp_turn (x : R) : C := (cos (2 * PI * x), - sin (2 * PI * x)).   (* exp(-1j*2*pi*x) *)

Section Sky.
Variable sid : R -> R.          (* sidereal time of a date at the array *)
Variable j1 : R -> R.
Variable alt_of : R -> R -> R -> R.  (* ephem: altitude of (ra, dec) at a date *)
Definition lst (r : arr) : R := sid (r_date r).

(* phs.py:52-56, 88-90 RadioFixedBody.compute, for a body whose coordinates of date are (ra, dec) *)
Definition compute (r : arr) (b : body) : body :=
  {| s_ra := s_ra b; s_dec := s_dec b; s_alt := alt_of (r_date r) (s_ra b) (s_dec b); s_map := eq2top_m (lst r - s_ra b) (s_dec b);
     s_ionref := s_ionref b; s_shape := s_shape b; s_mfreq := s_mfreq b |}.

(* phs.py:233-247 set_ephemtime *)
Definition set_ephemtime (r : arr) (t : R) : arr :=
  {| r_beams := r_beams r; r_ants := r_ants r; r_lat := r_lat r; r_date := t; r_eq2zen := r_eq2zen r;
     r_eq2now := Some (rot_m (- sid t) (0, 0, 1)); r_eq2top := r_eq2top r; r_cache := r_cache r; r_pol := r_pol r |}.
(* phs.py:233-236, amp.py:291-295 set_jultime; t is the date on ephem's scale *)
Definition set_jultime (r : arr) (t : R) : arr :=
  let r := set_ephemtime r t in
  {| r_beams := r_beams r; r_ants := r_ants r; r_lat := r_lat r; r_date := r_date r; r_eq2zen := r_eq2zen r; r_eq2now := r_eq2now r;
     r_eq2top := Some (eq2top_m (- lst r) (r_lat r)); r_cache := CNone; r_pol := r_pol r |}.

(* phs.py:297-299 get_afreqs *)
Definition get_afreqs (r : arr) : out (list R) :=
  obind (get (r_ants r) 0) (fun a => obind (get (r_beams r) (a_beam a)) (fun b => Val (b_afreqs b))).
(* phs.py:303-321 get_baseline: one vector, or one for every source *)
Definition get_baseline (r : arr) (i j : nat) (src : srcarg) : out (list vec) :=
  obind (get (r_ants r) j) (fun aj => obind (get (r_ants r) i) (fun ai =>
  let bl := vsub (a_pos aj) (a_pos ai) in
  match src with
  | SStr s =>
    if String.eqb s "e" then match r_eq2now r with Some m => Val [mv m bl] | None => Exc AttributeError end
    else if String.eqb s "z" then Val [mv (r_eq2zen r) bl]
    else if String.eqb s "r" then Val [bl]
    else Exc ValueError
  | SBody b => if Rlt_dec (s_alt b) 0 then Exc PointingError else Val [mv (s_map b) bl]
  | SVecs l => Val (map (fun v => let '(ra, dec) := eq2radec v in mv (eq2top_m (lst r - ra) dec) bl) l)
  end)).
(* phs.py:322-324 get_phs_offset *)
Definition get_phs_offset (r : arr) (i j : nat) : out (list R) :=
  obind (get (r_ants r) j) (fun aj => obind (get (r_ants r) i) (fun ai => bcast Rminus (a_phsoff aj) (a_phsoff ai))).
(* phs.py:325-338 gen_uvw: for each source, for each active frequency *)
Definition gen_uvw (r : arr) (i j : nat) (src : srcarg) : out (list (list vec)) :=
  obind (get_baseline r i j src) (fun bls => obind (get_afreqs r) (fun fs =>
  Val (map (fun bl => let '(x, y, z) := bl in map (fun f => (x * f, y * f, z * f)) fs) bls))).
(* phs.py:372-392 refract: the change of w *)
Definition refract (r : arr) (uvw : list (list vec)) (mfreq : sa) (ionref : sa * sa) : out (list (list R)) :=
  let n := length uvw in
  obind (spread n (fst ionref)) (fun dras => obind (spread n (snd ionref)) (fun ddecs => obind (spread n mfreq) (fun ms =>
  obind (get_afreqs r) (fun fs =>
  Val (zip_with (fun row p => let '(dra, (ddec, m)) := p in
                  zip_with (fun v f => let '(u, v, _) := v in (dra * u + ddec * v) * m ^ 2 / f ^ 2) row fs)
        uvw (combine dras (combine ddecs ms))))))).
(* phs.py:356-371 resolve_src *)
Definition resolve_src (uvw : list (list vec)) (shape : sa * sa * sa) : out (list (list R)) :=
  let n := length uvw in let '(a1, a2, th) := shape in
  obind (spread n a1) (fun a1s => obind (spread n a2) (fun a2s => obind (spread n th) (fun ths =>
  Val (zip_with (fun row p => let '(a1, (a2, th)) := p in
                  map (fun v => let '(u, v, _) := v in
                         let ru := a1 * (u * cos th - v * sin th) in let rv := a2 * (u * sin th + v * cos th) in
                         let x := 2 * PI * sqrt (ru ^ 2 + rv ^ 2) in
                         if Req_EM_T x 0 then 1 else 2 * j1 x / x) row)
        uvw (combine a1s (combine a2s ths)))))).
Definition sc2 (p : R * R) : sa * sa := (Sc (fst p), Sc (snd p)).
Definition sc3 (p : R * R * R) : sa * sa * sa := let '(a, b, c) := p in (Sc a, Sc b, Sc c).
Definition third (v : vec) : R := let '(_, _, z) := v in z.
(* phs.py:339-355 gen_phs: for each source, for each active frequency *)
Definition gen_phs (r : arr) (src : srcarg) (i j : nat) (mfreq : sa) (ionref : option (sa * sa)) (shape : option (sa * sa * sa)) (resolve : bool) : out (list (list C)) :=
  let ionref := match ionref, src with None, SBody b => Some (sc2 (s_ionref b)) | _, _ => ionref end in
  let shape := match shape, src with None, SBody b => Some (sc3 (s_shape b)) | _, _ => shape end in
  obind (gen_uvw r i j src) (fun uvw =>
  let w := map (map third) uvw in
  obind (match ionref with None => Val w | Some q => obind (refract r uvw mfreq q) (fun dw => Val (zip_with (zip_with Rplus) w dw)) end) (fun w =>
  obind (get_phs_offset r i j) (fun o =>
  obind (omap (fun row => bcast Rplus row o) w) (fun ph =>
  let phs := map (map cexp_turn) ph in
  if resolve then match shape with
                  | None => Val phs
                  | Some s => obind (resolve_src uvw s) (fun a => omap (fun p => bcast (fun z k => cscale k z) (fst p) (snd p)) (combine phs a))
                  end
  else Val phs)))).
(* numpy complex division; division by zero gives nan or inf there *)
Definition cquot (a b : C) : C := (((fst a) * (fst b) + (snd a) * (snd b)) / cnorm2 b, ((snd a) * (fst b) - (fst a) * (snd b)) / cnorm2 b).
(* phs.py:393-400 phs2src, unphs2src *)
Definition phs2src (r : arr) (data : list C) (src : srcarg) (i j : nat) (mfreq : sa) (ionref : option (sa * sa)) : out (list (list C)) :=
  obind (gen_phs r src i j mfreq ionref None false) (fun ph => omap (bcast cmul data) ph).
Definition unphs2src (r : arr) (data : list C) (src : srcarg) (i j : nat) (mfreq : sa) (ionref : option (sa * sa)) : out (list (list C)) :=
  obind (gen_phs r src i j mfreq ionref None false) (fun ph => omap (bcast cquot data) ph).

(* amp.py:285-290 set_active_pol *)
Definition set_active_pol (r : arr) (p : option (xy * xy)) : arr * out unit :=   (* None: any other string *)
  match p with
  | None => (r, Exc AssertionError)
  | Some _ => ({| r_beams := r_beams r; r_ants := r_ants r; r_lat := r_lat r; r_date := r_date r; r_eq2zen := r_eq2zen r; r_eq2now := r_eq2now r;
                  r_eq2top := r_eq2top r; r_cache := r_cache r; r_pol := p |}, Val tt)
  end.
(* amp.py:296-298 passband *)
Definition passband (r : arr) (i j : nat) : out (list C) :=
  obind (get (r_ants r) j) (fun aj => obind (get (r_ants r) i) (fun ai => bcast cmul (a_gain aj) (map cconjugate (a_gain ai)))).
(* amp.py:261-267 Antenna.bm_response, transposed: for each source, for each active frequency *)
Definition ant_response (r : arr) (i : nat) (tops : list vec) (p : xy) : out (list (list C)) :=
  obind (get (r_ants r) i) (fun a => obind (get (r_beams r) (a_beam a)) (fun b =>
  let rot := match p with PX => a_rotx a | PY => a_roty a end in
  Val (map (fun t => map (fun f => b_pat b f (mv rot t)) (b_afreqs b)) tops))).
Fixpoint find {K A} (eqb : K -> K -> bool) (l : list (K * A)) (k : K) : option A :=
  match l with [] => None | (k', x) :: r => if eqb k k' then Some x else find eqb r k end.
Fixpoint store {K A} (eqb : K -> K -> bool) (l : list (K * A)) (k : K) (x : A) : list (K * A) :=
  match l with [] => [(k, x)] | (k', y) :: r => if eqb k k' then (k', x) :: r else (k', y) :: store eqb r k x end.
(* amp.py:305-310: the loop body for one antenna and polarisation *)
Definition bm_fill (r : arr) (c : nat) (p : xy) : arr * out unit :=
  match r_cache r with
  | CUnset => (r, Exc AttributeError)
  | CNone => (r, Exc TypeError)
  | CDict s bm =>
    let bm := match find Nat.eqb bm c with None => store Nat.eqb bm c [] | Some _ => bm end in
    let r := with_cache r (CDict s bm) in
    let e := match find Nat.eqb bm c with Some e => e | None => [] end in
    match find xy_eqb e p with
    | Some _ => (r, Val tt)
    | None =>
      match s with
      | None => (r, Exc KeyError)
      | Some s' => match ant_response r c (c_top s') p with
                   | Exc x => (r, Exc x)
                   | Val resp => (with_cache r (CDict s (store Nat.eqb bm c (store xy_eqb e p resp))), Val tt)
                   end
      end
    end
  end.
Definition cached (r : arr) (c : nat) (p : xy) : out (list (list C)) :=
  match r_cache r with
  | CUnset => Exc AttributeError | CNone => Exc TypeError
  | CDict _ bm => match find Nat.eqb bm c with None => Exc KeyError | Some e => match find xy_eqb e p with None => Exc KeyError | Some x => Val x end end
  end.
(* two-dimensional arithmetic, source by source *)
Definition rows {A B D} (f : A -> B -> D) (a : list (list A)) (b : list (list B)) : out (list (list D)) :=
  obind (bcast pair a b) (fun l => omap (fun p => bcast f (fst p) (snd p)) l).
(* amp.py:299-311 bm_response *)
Definition bm_response (r : arr) (i j : nat) : arr * out (list (list C)) :=
  match r_pol r with
  | None => (r, Exc RuntimeError)
  | Some (p1, p2) =>
    let '(r, o) := bm_fill r i p1 in
    match o with
    | Exc e => (r, Exc e)
    | Val _ => let '(r, o) := bm_fill r j p2 in
      match o with
      | Exc e => (r, Exc e)
      | Val _ => (r, obind (cached r j p2) (fun bj => obind (cached r i p1) (fun bi => rows cmul bj (map (map cconjugate) bi))))
      end
    end
  end.
(* amp.py:312-357 sim_cache *)
Definition sim_cache (r : arr) (eqs : list vec) (jys : list (list R)) (mfreqs : sa) (ionrefs : sa * sa) (shapes : sa * sa * sa) : arr * out unit :=
  match r_eq2top r with
  | None => (r, Exc AttributeError)
  | Some m =>
    let top := map (mv m) eqs in
    let valid := map (fun t => Rltb 0 (third t)) top in
    if forallb negb valid then (with_cache r (CDict None []), Val tt) else
    let '(a1, a2, th) := shapes in let '(dra, ddec) := ionrefs in
    match obind (compress valid jys) (fun jys => obind (compress_sa valid mfreqs) (fun mf =>
          obind (compress_sa valid a1) (fun a1 => obind (compress_sa valid a2) (fun a2 => obind (compress_sa valid th) (fun th =>
          obind (compress_sa valid dra) (fun dra => obind (compress_sa valid ddec) (fun ddec =>
          obind (compress valid top) (fun top => obind (compress valid eqs) (fun eqs =>
          Val {| c_jys := jys; c_mfreq := mf; c_eqs := eqs; c_top := top; c_shp := (a1, a2, th); c_iref := (dra, ddec) |}))))))))) with
    | Exc e => (r, Exc e)
    | Val s => (with_cache r (CDict (Some s) []), Val tt)
    end
  end.
Definition czero : C := (0, 0).
(* sum(axis=0) *)
Fixpoint sum_rows (F : nat) (l : list (list C)) : list C := match l with [] => repeat czero F | row :: r => zip_with cadd row (sum_rows F r) end.
(* amp.py:358-381 sim *)
Definition sim (r : arr) (i j : nat) : arr * out (list C) :=
  match r_cache r with
  | CUnset => (r, Exc AttributeError)
  | CNone => (r, Exc RuntimeError)
  | CDict None [] => (r, obind (passband r i j) (fun g => Val (map (fun _ => czero) g)))
  | CDict None _ => (r, Exc KeyError)
  | CDict (Some s) _ =>
    match gen_uvw r i j (SVecs (c_eqs s)), passband r i j with
    | Exc e, _ => (r, Exc e)
    | _, Exc e => (r, Exc e)
    | Val _, Val g =>
      let '(r, b) := bm_response r i j in
      (r, obind b (fun b =>
          obind (gen_phs r (SVecs (c_eqs s)) i j (c_mfreq s) (Some (c_iref s)) (Some (c_shp s)) true) (fun ph =>
          let E := map (map cconjugate) ph in
          (* E_sf.shape = I_sf.shape *)
          if Nat.eqb (length E) (length (c_jys s)) && forallb (fun p => Nat.eqb (length (fst p)) (length (snd p))) (combine E (c_jys s)) then
          obind (rows cmul [g] b) (fun gb => obind (rows (fun z k => cscale k z) gb (c_jys s)) (fun gbi => obind (rows cmul gbi E) (fun v =>
          Val (sum_rows (length (hd [] v)) v))))
          else Exc ValueError)))
    end
  end.
End Sky.
