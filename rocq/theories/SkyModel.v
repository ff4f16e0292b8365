(* Images of the sky: aipy/img.py, the pixels' coordinates, the Fourier transforms, the W projection kernel and
   gaussian_beam. Exact reals instead of float32; square matrices are flat functions as in ImgModel; what
   numpy.fft computes is taken to be the discrete Fourier transform. *)
From Coq Require Import Reals.
From Verif Require Import Base CleanModel GridModel ImgModel GeoModel.
Open Scope R_scope.
Local Notation length := List.length.

(* exp(2j*pi*t) *)
Definition cis (t : R) : C := (cos (2 * PI * t), sin (2 * PI * t)).
(* numpy.fft.fft2; ifft2 is in ImgModel *)
Definition fft2 (n : Z) (m : Z -> C) (x y : Z) : C :=
  fold_right (fun '(a, b) s => cadd (cmul (m (a * n + b)%Z) (cis (- IZR (a * x + b * y) / IZR n))) s) (0, 0)
    (list_prod (zrange 0 (n - 1)) (zrange 0 (n - 1))).
(* a function of row and column as a flat matrix *)
Definition flat (n : Z) (f : Z -> Z -> C) : Z -> C := fun k => f (k / n)%Z (k mod n)%Z.
(* img.py:61-63 convolve2d *)
Definition convolve2d (n : Z) (a b : Z -> C) : Z -> C :=
  flat n (ifft2 n (flat n (fun x y => cmul (fft2 n a x y) (fft2 n b x y)))).

(* an n by n array from a function of row and column *)
Definition table {A} (n : nat) (m : nat) (f : Z -> Z -> A) : list (list A) :=
  map (fun i => map (fun j => f (Z.of_nat i) (Z.of_nat j)) (seq 0 m)) (seq 0 n).
(* img.py:95-103 get_LM before recenter: l and m of the pixel in row i and column j, and whether it is masked *)
Definition pixel_lm (n : Z) (res : R) (i j : Z) : R * R * bool :=
  let L := if (j >? n / 2)%Z then (n - j)%Z else (- j)%Z in
  let M := if (i >? n / 2)%Z then (i - n)%Z else i in
  let l := IZR L / IZR n / res in let m := IZR M / IZR n / res in
  (l, m, if Rle_dec 1 (l * l + m * m) then true else false).
Definition get_LM (n : Z) (res : R) (c0 c1 : Z) : Base.res (list (list (R * R * bool))) :=
  recenter (Z.to_nat n) (Z.to_nat n) (table (Z.to_nat n) (Z.to_nat n) (pixel_lm n res)) c0 c1.
(* img.py:112-117 get_uv *)
Definition uv_coords (n : Z) (res : R) (i j : Z) : R * R :=
  let u := if (i <? n / 2)%Z then i else (i - n)%Z in
  let v := if (j <? n / 2)%Z then j else (j - n)%Z in (IZR u * res, IZR v * res).
(* img.py:191-198 _gen_img, image *)
Definition gen_img (n : Z) (m : Z -> C) (c0 c1 : Z) : Base.res (list (list R)) :=
  recenter (Z.to_nat n) (Z.to_nat n) (table (Z.to_nat n) (Z.to_nat n) (fun x y => fst (ifft2 n m x y))) c0 c1.
Definition image (im : img) (c0 c1 : Z) : Base.res (list (list R)) := gen_img (i_n im) (i_uv im) c0 c1.
(* img.py:208-224 get_top, get_eq: the vector of a pixel and whether it is masked *)
Definition top_of (p : R * R * bool) : vec * bool := let '(l, m, k) := p in ((l, m, sqrt (1 - l * l - m * m)), k).
Definition get_eq (n : Z) (res ra dec : R) (c0 c1 : Z) : Base.res (list (list (vec * bool))) :=
  bind (get_LM n res c0 c1) (fun t => bind (top2eq_m (- ra) dec) (fun mt =>
  Ok (map (map (fun p => let '(v, k) := top_of p in (mv mt v, k))) t))).

(* img.py:305-323 conv_invker; get_LM has centre (0, 0), where recenter changes nothing; masked pixels are filled with 0 *)
Definition w_kernel (n : Z) (res w : R) (i j : Z) : C :=
  let '(l, m, k) := pixel_lm n res i j in
  if k then (0, 0) else cis (- (w * (sqrt (1 - l * l - m * m) - 1))).
(* G[1:] = flipud(G[1:]), G[:,1:] = fliplr(G[:,1:]) *)
Definition flip (n i : Z) : Z := if (i =? 0)%Z then 0%Z else (n - i)%Z.
Definition conv_invker (n : Z) (res w : R) (i j : Z) : C := cscale (/ IZR (n * n)) (w_kernel n res w (flip n i) (flip n j)).
(* img.py:263-269: np.fft.ifft2(np.fft.fft2(uv) * invker) *)
Definition wproj (n : Z) (res w : R) (m : Z -> C) : Z -> C :=
  flat n (ifft2 n (flat n (fun x y => cmul (fft2 n m x y) (conv_invker n res w x y)))).

(* img.py:65-76 gaussian_beam: sigma an int or a float, shape an int or a pair. Any int for shape stands for (2 sigma,
   2 sigma), which must be ints; an empty axis fails in recenter *)
Definition gaussian_beam (sigma : Z + R) (shape : Z + nat * nat) (amp : R) (c0 c1 : Z) : Base.res (list (list R)) :=
  let s := match sigma with inl k => IZR k | inr x => x end in
  bind (match shape, sigma with
        | inr p, _ => Ok p
        | inl _, inl k => if (k <? 0)%Z then Err else Ok (Z.to_nat (2 * k), Z.to_nat (2 * k))
        | inl _, inr _ => Err
        end) (fun '(s0, s1) =>
  let gaussian x y :=
    let nx := IZR (if (x >? Z.of_nat s0 / 2)%Z then x - Z.of_nat s0 else x)%Z in
    let ny := IZR (if (y >? Z.of_nat s1 / 2)%Z then y - Z.of_nat s1 else y)%Z in
    exp (- (nx * nx + ny * ny) / (s * s)) in
  recenter s0 s1 (table s0 s1 (fun x y => gaussian x y * amp)) c0 c1).
