(* Healpix maps, spherical-harmonic coefficient tables (aipy/healpix.py) and averaged sky maps
   (aipy/map.py). Simplifications: pixel values are exact reals; a (th,phi) or (x,y,z)
   coordinate is one abstract direction; what healpy computes about directions (ang2pix,
   vec2pix, pix2ang, nest2ring, ring2nest, get_interp_weights) is a parameter of the section,
   its contract is in HpxSpec.v; the closed integer formulas of healpy.Alm are written out;
   FITS input and output is left out. An exception is Err and leaves the object as it was. *)
From Coq Require Import Reals.
From Verif Require Import Base CleanModel GridModel.
Open Scope Z_scope.

Inductive scheme := RING | NEST.
Definition scheme_eqb (a b : scheme) : bool := match a, b with RING, RING | NEST, NEST => true | _, _ => false end.

(* an object of class HealpixMap: healpix.py:33-35, 194, 215 *)
Record hpm := Hpm { h_nside : Z; h_scheme : scheme; h_map : list R; h_interp : bool }.
Definition with_map (h : hpm) (m : list R) : hpm := Hpm (h_nside h) (h_scheme h) m (h_interp h).
Definition with_scheme (h : hpm) (s : scheme) : hpm := Hpm (h_nside h) s (h_map h) (h_interp h).
(* healpix.py:84-86, healpy.nside2npix *)
Definition npix (nside : Z) : Z := 12 * (nside * nside).

(* numpy: a[i] for one integer i; a negative i counts from the end, out of range is IndexError *)
Definition np_index (n i : Z) : res nat :=
  if (0 <=? i) && (i <? n) then Ok (Z.to_nat i) else if (- n <=? i) && (i <? 0) then Ok (Z.to_nat (i + n)) else Err.
Definition lenZ {A} (l : list A) : Z := Z.of_nat (length l).
Definition np_get {A} (d : A) (a : list A) (i : Z) : res A := bind (np_index (lenZ a) i) (fun k => Ok (nth k a d)).
Fixpoint np_set {A} (a : list A) (k : nat) (v : A) : list A :=
  match a, k with [], _ => [] | _ :: r, O => v :: r | x :: r, S k => x :: np_set r k v end.
Fixpoint mapM {A B} (f : A -> res B) (l : list A) : res (list B) :=
  match l with [] => Ok [] | x :: r => bind (f x) (fun y => bind (mapM f r) (fun ys => Ok (y :: ys))) end.
(* a 1-dimensional array as the argument of add2array, and back *)
Definition cells {A} (d : A) (a : list A) : list Z -> A := fun c => nth (Z.to_nat (hd 0 c)) a d.
Definition uncells {A} (n : nat) (f : list Z -> A) : list A := map (fun k => f [Z.of_nat k]) (seq 0 n).

(* healpix.py:206-215 set_map, 45-53 set_nside_scheme, healpy.npix2nside: the number of
   pixels is 12*N**2 (else ValueError) with N a power of 2 (else AssertionError) *)
Definition npix2nside (n : Z) : res Z := let s := Z.sqrt (n / 12) in if npix s =? n then Ok s else Err.
Definition pow2 (n : Z) : bool := (0 <? n) && (2 ^ Z.log2 n =? n).
Definition set_map (h : hpm) (data : list R) (s : scheme) : res hpm :=
  bind (npix2nside (lenZ data)) (fun n => if pow2 n then Ok (Hpm n s data (h_interp h)) else Err).

Inductive value := Scalar (x : R) | Arr (l : list R).

Section Hpx.
Variable Dir : Type.
Variables ring2nest nest2ring : Z -> Z -> Z.
Variable pixel : Z -> scheme -> Dir -> Z.
Variable centre : Z -> scheme -> Z -> Dir.
Variable interp_weights : Z -> scheme -> Dir -> list (Z * R).

(* how a map is indexed: an array of pixel numbers or a tuple of coordinate arrays *)
Inductive crd := Px (l : list Z) | At (l : list Dir).
(* healpix.py:54-68 crd2px without interpolation; 239-245 *)
Definition pixels (h : hpm) (c : crd) : list Z :=
  match c with Px l => l | At ds => map (pixel (h_nside h) (h_scheme h)) ds end.
(* healpix.py:226-237 __getitem__ *)
Definition getitem (h : hpm) (c : crd) : res (list R) :=
  match c with
  | At ds =>
      if h_interp h then
        mapM (fun d => fold_right (fun '(p, w) acc => bind (np_get 0%R (h_map h) p) (fun v => bind acc (fun s => Ok (v * w + s)%R))) (Ok 0%R)
                          (interp_weights (h_nside h) (h_scheme h) d)) ds
      else mapM (np_get 0%R (h_map h)) (pixels h c)
  | Px _ => mapM (np_get 0%R (h_map h)) (pixels h c)
  end.
(* healpix.py:238-260 __setitem__: one pixel is assigned by numpy (a scalar or an array of one
   value); otherwise the values are summed into an empty map with add2array, the addressed
   pixels are marked with a second add2array (adding C++ bools), and np.where merges *)
Definition setitem (h : hpm) (c : crd) (v : value) : res hpm :=
  match pixels h c with
  | [p] =>
      bind (np_index (lenZ (h_map h)) p) (fun k =>
      match v with
      | Scalar x => Ok (with_map h (np_set (h_map h) k x))
      | Arr [x] => Ok (with_map h (np_set (h_map h) k x))
      | Arr _ => Err
      end)
  | px =>
      let val := match v with Scalar x => [x] | Arr l => l end in
      let ind := map (fun p => [p]) px in
      let shape := [lenZ (h_map h)] in
      match add2array Rplus shape (fun _ => 0%R) ind val with
      | Some (true, m) =>
          match add2array orb shape (fun _ => false) ind (map (fun _ => true) val) with
          | Some (true, cnt) =>
              Ok (with_map h (uncells (length (h_map h)) (fun k => if cnt k then m k else cells 0%R (h_map h) k)))
          | _ => Err
          end
      | _ => Err
      end
  end.

(* healpix.py:39-44 nest_ring_conv: the pixel numbers and the object with its new scheme *)
Definition nest_ring_conv (h : hpm) (px : list Z) (s : scheme) : list Z * hpm :=
  let px := if scheme_eqb s (h_scheme h) then px
            else map (match s with RING => nest2ring (h_nside h) | NEST => ring2nest (h_nside h) end) px in
  (px, with_scheme h s).
Definition arange (n : Z) : list Z := map Z.of_nat (seq 0 (Z.to_nat n)).
(* healpix.py:219-225 change_scheme *)
Definition change_scheme (h : hpm) (s : scheme) : res hpm :=
  if scheme_eqb s (h_scheme h) then Ok h
  else let '(i, h) := nest_ring_conv h (arange (npix (h_nside h))) s in
       bind (setitem h (Px i) (Arr (h_map h))) (fun h => Ok (with_scheme h s)).
(* healpix.py:261-280 from_hpm: the new self and the argument afterwards *)
Definition from_hpm (self hp : hpm) : res (hpm * hpm) :=
  if h_nside hp <? h_nside self then
    let hp := Hpm (h_nside hp) (h_scheme hp) (h_map hp) true in
    let px := arange (npix (h_nside self)) in
    let ds := map (centre (h_nside self) (h_scheme self)) px in
    bind (getitem hp (At ds)) (fun v => bind (setitem self (Px px) (Arr v)) (fun self => Ok (self, hp)))
  else if h_nside self <? h_nside hp then
    let px := arange (npix (h_nside hp)) in
    let ds := map (centre (h_nside hp) (h_scheme hp)) px in
    bind (getitem hp (Px px)) (fun v => bind (setitem self (At ds) (Arr v)) (fun self => Ok (self, hp)))
  else if scheme_eqb (h_scheme hp) (h_scheme self) then Ok (with_map self (h_map hp), hp)
  else let '(i, self) := nest_ring_conv self (arange (npix (h_nside self))) (h_scheme hp) in
       bind (mapM (np_get 0%R (h_map hp)) i) (fun m => Ok (with_map self m, hp)).

(* ---------------- map.py ---------------- *)
(* class Map: weighted fluxes, weights, weighted indices: map.py:70-79 *)
Record skymap := Sky { k_map : hpm; k_wgt : hpm; k_ind : list hpm }.
Definition zip_add (a b : list R) : list R := map (fun '(x, y) => x + y)%R (combine a b).
Definition zip_mul (a b : list R) : list R := map (fun '(x, y) => x * y)%R (combine a b).
(* h[crds] += vals: python reads, adds (arrays of equal length), then assigns *)
Definition iadd (h : hpm) (c : crd) (vals : list R) : res hpm :=
  bind (getitem h c) (fun old => if Nat.eqb (length old) (length vals) then setitem h c (Arr (zip_add old vals)) else Err).
(* map.py:104-107 add, 108-111 put: inds pairs each index map with its values; an error part
   way leaves the earlier maps changed, which Err does not show *)
Fixpoint inds_upd (f : hpm -> list R -> res hpm) (maps : list hpm) (inds : list (list R)) : res (list hpm) :=
  match inds, maps with
  | [], _ => Ok maps
  | _ :: _, [] => Err
  | v :: inds, m :: maps => bind (f m v) (fun m => bind (inds_upd f maps inds) (fun ms => Ok (m :: ms)))
  end.
Definition mul_chk (a b : list R) : res (list R) := if Nat.eqb (length a) (length b) then Ok (zip_mul a b) else Err.
Definition map_add (k : skymap) (c : crd) (wgts fluxes : list R) (inds : list (list R)) : res skymap :=
  bind (iadd (k_wgt k) c wgts) (fun w =>
  bind (bind (mul_chk fluxes wgts) (iadd (k_map k) c)) (fun m =>
  bind (inds_upd (fun h v => bind (mul_chk v wgts) (iadd h c)) (k_ind k) inds) (fun i => Ok (Sky m w i)))).
Definition map_put (k : skymap) (c : crd) (wgts fluxes : list R) (inds : list (list R)) : res skymap :=
  bind (setitem (k_wgt k) c (Arr wgts)) (fun w =>
  bind (bind (mul_chk fluxes wgts) (fun v => setitem (k_map k) c (Arr v))) (fun m =>
  bind (inds_upd (fun h v => bind (mul_chk v wgts) (fun v => setitem h c (Arr v))) (k_ind k) inds) (fun i => Ok (Sky m w i)))).
Definition pos_or_1 (w : R) : R := if Rltb 0 w then w else 1%R.
Definition zip_div (a b : list R) : list R := map (fun '(x, y) => x / y)%R (combine a b).
(* map.py:96-103 __getitem__ *)
Definition map_get (k : skymap) (c : crd) : res (list R * list (list R)) :=
  bind (getitem (k_wgt k) c) (fun w => let w := map pos_or_1 w in
  bind (getitem (k_map k) c) (fun f =>
  bind (mapM (fun h => bind (getitem h c) (fun v => Ok (zip_div v w))) (k_ind k)) (fun i => Ok (zip_div f w, i)))).
(* map.py:112-116 reset_wgt *)
Definition reset_wgt (k : skymap) (wgt : R) : skymap :=
  let w := map pos_or_1 (h_map (k_wgt k)) in
  Sky (with_map (k_map k) (zip_div (h_map (k_map k)) w))
      (with_map (k_wgt k) (map (fun x => if Rltb 0 x then wgt else 0%R) (h_map (k_wgt k))))
      (map (fun h => with_map h (zip_div (h_map h) w)) (k_ind k)).
(* map.py:117-122 from_map *)
Fixpoint inds_from (mine theirs : list hpm) : res (list hpm) :=
  match mine, theirs with
  | m :: mine, t :: theirs => bind (from_hpm m t) (fun r => bind (inds_from mine theirs) (fun ms => Ok (fst r :: ms)))
  | mine, _ => Ok mine
  end.
Definition from_map (self k : skymap) : res skymap :=
  bind (from_hpm (k_map self) (k_map k)) (fun m => bind (from_hpm (k_wgt self) (k_wgt k)) (fun w =>
  bind (inds_from (k_ind self) (k_ind k)) (fun i => Ok (Sky (fst m) (fst w) i)))).
End Hpx.
(* map.py:70-78: a new map; nside a power of 2 *)
Definition new_hpm (nside : Z) (s : scheme) (interp : bool) : hpm := Hpm nside s (repeat 0%R (Z.to_nat (npix nside))) interp.
(* map.py:85-91 set_nindices *)
Definition set_nindices (k : skymap) (nside : Z) (s : scheme) (interp : bool) (n : nat) : skymap :=
  let ind := firstn n (k_ind k) in
  Sky (k_map k) (k_wgt k) (ind ++ repeat (new_hpm nside s interp) (n - length ind)).
Definition new_map (nside : Z) (s : scheme) (interp : bool) (nind : nat) : skymap :=
  set_nindices (Sky (new_hpm nside s interp) (new_hpm nside s interp) []) nside s interp nind.

(* ---------------- Alm: healpix.py:91-186 ---------------- *)
(* healpy.Alm.getsize, getidx, getlm; the square root of getlm is exact (its argument is
   rounded up to an integer number of halves, see HpxProofs) *)
Definition getsize (lmax mmax : Z) : Z := mmax * (2 * lmax + 1 - mmax) / 2 + lmax + 1.
Definition getidx (lmax l m : Z) : Z := m * (2 * lmax + 1 - m) / 2 + l.
(* ceil ((a - sqrt d) / 2) for integers a and d: sqrt d >= a - 2 m iff floor (sqrt d) >= a - 2 m *)
Definition getlm (lmax i : Z) : Z * Z :=
  let a := 2 * lmax + 1 in
  let m := - ((Z.sqrt (a * a - 8 * (i - lmax)) - a) / 2) in
  (i - m * (2 * lmax + 1 - m) / 2, m).
Section Alm.
Variable T : Type.
Variable zero : T.
Record alm := Alm { a_lmax : Z; a_mmax : Z; a_data : list T }.
(* healpix.py:93-106 *)
Definition new_alm (lmax mmax : Z) : res alm :=
  if mmax <=? lmax then Ok (Alm lmax mmax (repeat zero (Z.to_nat (getsize lmax mmax)))) else Err.
(* healpix.py:113-116 *)
Definition alm_get (a : alm) (l m : Z) : res T := np_get zero (a_data a) (getidx (a_lmax a) l m).
(* healpix.py:117-120 *)
Definition alm_set (a : alm) (l m : Z) (v : T) : res alm :=
  bind (np_index (lenZ (a_data a)) (getidx (a_lmax a) l m)) (fun k => Ok (Alm (a_lmax a) (a_mmax a) (np_set (a_data a) k v))).
(* healpix.py:176-178 *)
Definition lm_indices (a : alm) : list (Z * Z) := map (fun k => getlm (a_lmax a) (Z.of_nat k)) (seq 0 (Z.to_nat (getsize (a_lmax a) (a_mmax a)))).
(* healpix.py:179-185 *)
Definition set_data (a : alm) (d : list T) : res alm := if lenZ d =? getsize (a_lmax a) (a_mmax a) then Ok (Alm (a_lmax a) (a_mmax a) d) else Err.
End Alm.
Arguments Alm {T}. Arguments a_lmax {T}. Arguments a_mmax {T}. Arguments a_data {T}.
(* healpix.py:121-152 to_map and 281-284 from_alm: alm2map is healpy's transform with its pixwin
   flag; the scheme is passed in pixwin's place, and a non-empty string is true *)
Section FromAlm.
Variable T : Type.
Variable alm2map : alm T -> Z -> bool -> list R.
Definition to_map (a : alm T) (nside : Z) (pixwin : bool) : list R := alm2map a nside pixwin.
Definition from_alm (h : hpm) (a : alm T) : res hpm := set_map h (to_map a (h_nside h) true) RING.
End FromAlm.
