(* Polarised antennas and arrays: aipy/pol.py. Exact reals; the responses of the two feeds are real, as
   those of Beam, Beam2DGaussian and BeamPolynomial are. *)
From Coq Require Import Reals String Ascii.
From Verif Require Import Base CleanModel ImgModel GeoModel ArrModel.
Open Scope R_scope.
Local Notation length := List.length.

(* pol.py:43-50 ParAng *)
Definition par_ang (ha dec lat : R) : R :=
  let up := cos lat * sin ha in
  let down := sin lat * cos dec - cos lat * sin dec * cos ha in
  atan2 up down.

(* dictionaries {pol: value}; a key that is not there is a KeyError *)
Definition pdict (A : Type) := list (string * A).
Fixpoint plook {A} (d : pdict A) (p : string) : out A :=
  match d with [] => Exc KeyError | (q, x) :: r => if String.eqb q p then Val x else plook r p end.

(* pol.py:64-79 Antenna: what the user gave (_phsoff, bp_r, bp_i, amp, the frequencies) and what update
   derives (phsoff, _gain); pa_resp is fit.Antenna.bm_response for one source at the active frequencies *)
Record pant := PAnt {
  pa_afreqs : list R; pa_phspoly : pdict (list R); pa_bpr : pdict (list R); pa_bpi : pdict (list R); pa_amp : pdict R;
  pa_phsoff : pdict (list R); pa_gain : pdict (list C); pa_respx : vec -> list R; pa_respy : vec -> list R }.

(* pol.py:67-70 _update_phsoff *)
Definition update_phsoff (a : pant) : pdict (list R) :=
  map (fun x => (fst x, map (polyval (snd x)) (pa_afreqs a))) (pa_phspoly a).
(* pol.py:71-76 _update_gain *)
Definition update_gain (a : pant) : out (pdict (list C)) :=
  omap (fun x => obind (plook (pa_bpi a) (fst x)) (fun bi => obind (plook (pa_amp a) (fst x)) (fun g =>
    Val (fst x, map (fun f => cscale g (polyval (snd x) f, polyval bi f)) (pa_afreqs a))))) (pa_bpr a).
(* phs.py:202-208, amp.py:241-247 update *)
Definition pupdate (a : pant) : out pant :=
  obind (update_gain a) (fun g =>
  Val (PAnt (pa_afreqs a) (pa_phspoly a) (pa_bpr a) (pa_bpi a) (pa_amp a) (update_phsoff a) g (pa_respx a) (pa_respy a))).

(* pol.py:77-79 Antenna.passband *)
Definition ant_passband (a : pant) (conj : bool) (p : string) : out (list C) :=
  obind (plook (pa_gain a) p) (fun g => Val (if conj then map cconjugate g else g)).

(* p in 'abc' for strings: p occurs in it *)
Fixpoint occurs (p s : string) : bool :=
  String.prefix p s || match s with EmptyString => false | String _ r => occurs p r end.
(* amp.py:261-267 bm_response: only 'x' and 'y' are keys *)
Definition feed_response (a : pant) (top : vec) (p : string) : out (list R) :=
  if String.eqb p "x" then Val (pa_respx a top) else if String.eqb p "y" then Val (pa_respy a top) else Exc KeyError.
(* pol.py:80-87 bm_response *)
Definition pol_response (a : pant) (top : vec) (p : string) : out (list R) :=
  if occurs p "xy" then feed_response a top p
  else if occurs p "IQUV" then
    obind (feed_response a top "x") (fun x => obind (feed_response a top "y") (fun y =>
    if occurs p "IQ" then
      bcast (fun a b => sqrt (a + b)) (map (fun u => / 2 * (u * u)) x) (map (fun u => / 2 * (u * u)) y)
    else if occurs p "UV" then bcast (fun a b => sqrt (a * b)) x y
    else Exc TypeError (* returns None *) ))
  else Exc AssertionError.

(* pol.py:140-143 AntennaArray *)
Record parr := PArr { pr_ants : list pant; pr_pol : option string }.
Definition pols8 : list string := ["xx"; "yy"; "xy"; "yx"; "I"; "Q"; "U"; "V"]%string.
Definition pset_active_pol (r : parr) (p : string) : out parr :=
  if existsb (String.eqb p) pols8 then Val (PArr (pr_ants r) (Some p)) else Exc AssertionError.
Definition pget_active_pol (r : parr) : out string :=
  match pr_pol r with None => Exc RuntimeError | Some p => Val p end.
(* s[0] and s[-1] *)
Definition first_char (s : string) : string := match s with EmptyString => EmptyString | String c _ => String c EmptyString end.
Fixpoint last_char (s : string) : string :=
  match s with EmptyString => EmptyString | String c EmptyString => s | String _ r => last_char r end.

(* pol.py:144-156 get_phs_offset; other strings give None; conj of reals does nothing *)
Definition pget_phs_offset (r : parr) (i j : nat) : out (list R) :=
  obind (pget_active_pol r) (fun p =>
  let off a q := obind (get (pr_ants r) a) (fun x => plook (pa_phsoff x) q) in
  let diff a q b s := obind (off a q) (fun u => obind (off b s) (fun v => bcast Rminus u v)) in
  let both f u v := obind u (fun u => obind v (fun v => bcast f u v)) in
  if existsb (String.eqb p) ["xx"; "yy"; "xy"; "yx"]%string then diff j (last_char p) i (first_char p)
  else if String.eqb p "I" then both Rplus (diff j "y" i "y") (diff j "x" i "x")
  else if String.eqb p "Q" then both Rminus (diff j "y" i "y") (diff j "x" i "x")
  else if String.eqb p "U" then both Rplus (diff j "y" i "x") (diff j "x" i "y")
  else if String.eqb p "V" then both Rminus (diff j "y" i "x") (diff j "x" i "y")
  else Exc TypeError)%string.
(* pol.py:157-159 passband *)
Definition ppassband (r : parr) (i j : nat) : out (list C) :=
  obind (pget_active_pol r) (fun p =>
  obind (get (pr_ants r) j) (fun aj => obind (ant_passband aj false (last_char p)) (fun gj =>
  obind (get (pr_ants r) i) (fun ai => obind (ant_passband ai true (first_char p)) (fun gi =>
  bcast cmul gj gi))))).

(* miriad.py:16-32 str2pol, pol2str *)
Definition str2pol : list (string * Z) :=
  [("I", 1); ("Q", 2); ("U", 3); ("V", 4); ("rr", -1); ("ll", -2); ("rl", -3); ("lr", -4);
   ("xx", -5); ("yy", -6); ("xy", -7); ("yx", -8)]%string%Z.
Fixpoint code_of (l : list (string * Z)) (p : string) : option Z :=
  match l with [] => None | (q, k) :: r => if String.eqb q p then Some k else code_of r p end.
Fixpoint name_of (l : list (string * Z)) (k : Z) : option string :=
  match l with [] => None | (q, c) :: r => if Z.eqb c k then Some q else name_of r k end.
(* pol.py:26-34 UV.read_pol, UV.write_pol: v is the value of the variable pol, None when it has none (then
   _rdvr raises); a name that is not in the table is printed and nothing is written *)
Definition write_pol (v : option Z) (p : string) : option Z := match code_of str2pol p with Some k => Some k | None => v end.
Definition read_pol (v : option Z) : out string :=
  match v with None => Exc RuntimeError | Some k => match name_of str2pol k with Some p => Val p | None => Exc KeyError end end.
