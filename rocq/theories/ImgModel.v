(* aipy/img.py: word_wrap, recenter, Img and ImgW (and aipy/deconv.py:71-77 recenter).
   Simplifications: exact reals instead of float32; arrays are lists (uv matrices are flat
   functions from offsets to values, as in GridModel); Fourier transforms and the W
   projection kernel are a parameter `wproj` (np.fft.ifft2(np.fft.fft2(m) * kernel)); masked
   arrays, printing and FITS files are left out. *)
From Coq Require Import Reals Ascii.
From Verif Require Import Base CleanModel GridModel.
Open Scope nat_scope.

(* ---------------- word_wrap: img.py:20-45 ---------------- *)
Definition text := list ascii.
Definition blank : ascii := " "%char.
(* string.split(' ') *)
Fixpoint split_blank (s : text) : list text :=
  match s with
  | [] => [[]]
  | c :: r => if Ascii.eqb c blank then [] :: split_blank r
              else match split_blank r with w :: ws => (c :: w) :: ws | [] => [[c]] end
  end.
(* img.py:32: [v[i*l:(i+1)*l] for i in range(ceil(len(v)/l))] *)
Definition chunk (v : text) (l : nat) : list text :=
  map (fun i => firstn l (skipn (i * l) v)) (seq 0 ((length v + l - 1) / l)).
(* img.py:36-44 *)
Fixpoint wrap_words (width : Z) (lead : text) (l : text) (words : list text) : list text :=
  match words with
  | [] => [l]
  | w :: ws => if (Z.of_nat (length (l ++ blank :: w)) <? width)%Z then wrap_words width lead (l ++ blank :: w) ws
               else l :: wrap_words width lead (lead ++ w) ws
  end.
(* the lines of the result, before '\n'.join; ind*' ' of a negative ind is empty. Err is the
   division by zero of awidth = 0; with awidth < 0 every chunk list is empty. *)
Definition word_lines (s : text) (width ind1 ind2 : Z) (prefix : text) : res (list text) :=
  let lead1 := prefix ++ repeat blank (Z.to_nat ind1) in
  let lead2 := prefix ++ repeat blank (Z.to_nat ind2) in
  let awidth := Z.min (width - 2 - Z.of_nat (length lead1)) (width - 2 - Z.of_nat (length lead2)) in
  if (awidth =? 0)%Z then Err
  else Ok (wrap_words width lead2 lead1
             (if (awidth <? 0)%Z then [] else flat_map (fun w => chunk w (Z.to_nat awidth)) (split_blank s))).

(* ---------------- recenter: img.py:47-59, deconv.py:71-77 ---------------- *)
Definition rotate {A} (c : nat) (l : list A) : list A := skipn c l ++ firstn c l.
(* a.shape = (s0, s1); Err is ZeroDivisionError (an empty axis) *)
Definition recenter {A} (s0 s1 : nat) (a : list (list A)) (c0 c1 : Z) : res (list (list A)) :=
  if Nat.eqb s0 0 || Nat.eqb s1 0 then Err
  else Ok (map (rotate (Z.to_nat (c1 mod Z.of_nat s1))) (rotate (Z.to_nat (c0 mod Z.of_nat s0)) a)).

(* ---------------- Img ---------------- *)
Open Scope R_scope.
Record img := Img { i_n : Z; i_res : R; i_uv : Z -> C; i_bm : list (Z -> C) }.
(* img.py:104-111 get_indices with USEDSP *)
Definition get_indices (res : R) (u v : R) : R * R := (- v / res, u / res).
(* the weights argument: not given, one bare array, a list of arrays *)
Inductive warg := WNone | WBare (w : list C) | WList (ws : list (list C)).
(* img.py:126-132, 237-243: Err for the failed assertion and for the arguments whose elements
   are not arrays (a bare array of one weight is not wrapped, its element is a number) *)
Definition norm_wgts (nb len : nat) (w : warg) : res (list (list C)) :=
  match w with
  | WNone => Ok (repeat (1, 0) len :: repeat (repeat (0, 0) len) (nb - 1))
  | WBare l => if Nat.eqb nb 1 && negb (Nat.eqb (length l) 1) then Ok [l] else Err
  | WList ls => if Nat.eqb (length ls) nb then Ok ls else Err
  end.
(* the wrapper's check of lengths (dsp.c:58-61) and grid2D_c with the default footprint *)
Definition grid (n : Z) (inds : list (R * R)) (data : list C) (buf : Z -> C) : res (Z -> C) :=
  if Nat.eqb (length inds) (length data) then grid2D n n 6 (combine inds data) buf else Err.
Fixpoint grid_all (n : Z) (inds : list (R * R)) (wgts : list (list C)) (bm : list (Z -> C)) : res (list (Z -> C)) :=
  match wgts, bm with
  | w :: wgts, b :: bm => bind (grid n inds w b) (fun b => bind (grid_all n inds wgts bm) (fun bs => Ok (b :: bs)))
  | _, bm => Ok bm
  end.
(* img.py:118-155 put onto given matrices *)
Definition put_on (n : Z) (res : R) (uvw : list (R * R * R)) (data : list C) (wgts : list (list C)) (m : (Z -> C) * list (Z -> C)) : Base.res ((Z -> C) * list (Z -> C)) :=
  let inds := map (fun '(u, v, _) => get_indices res u v) uvw in
  bind (grid n inds data (fst m)) (fun uv => bind (grid_all n inds wgts (snd m)) (fun bm => Ok (uv, bm))).
Definition zeros : Z -> C := fun _ => (0, 0).
(* Img.put with apply=True; with apply=False the matrices start from zeros and are returned *)
Definition put (im : img) (uvw : list (R * R * R)) (data : list C) (w : warg) : res img :=
  bind (norm_wgts (length (i_bm im)) (length data) w) (fun wgts =>
  bind (put_on (i_n im) (i_res im) uvw data wgts (i_uv im, i_bm im)) (fun '(uv, bm) => Ok (Img (i_n im) (i_res im) uv bm))).
(* img.py:156-177 get: None is the nan of a zero division *)
Definition cdiv (a b : C) : option C :=
  if Req_EM_T (cnorm2 b) 0 then None else Some (cmul a (cinverse b (cnorm2 b))).
Definition get_uv (n : Z) (res : R) (uvw : list (R * R * R)) (uv bm : Z -> C) : Base.res (list (option C)) :=
  let at_ := map (fun '(u, v, _) => let '(u1, v1) := get_indices res (- u) v in (- v1, u1, (0, 0))) uvw in
  bind (degrid2D n n 6 uv at_) (fun a => bind (degrid2D n n 6 bm at_) (fun b => Ok (map (fun '(x, y) => cdiv x y) (combine a b)))).
(* img.py:178-190 append_hermitian, weights not given / given *)
Definition cconjugate (z : C) : C := (fst z, - snd z).
Definition mirror (p : R * R * R) : R * R * R := let '(u, v, w) := p in (- u, - v, - w).
Definition append_hermitian (nb : nat) (uvw : list (R * R * R)) (data : list C) (w : warg) : res (list (R * R * R) * list C * warg) :=
  let uvw2 := uvw ++ map mirror uvw in
  let data2 := data ++ map cconjugate data in
  match w with
  | WNone => Ok (uvw2, data2, WNone)
  | _ => bind (norm_wgts nb (length data) w) (fun ws => Ok (uvw2, data2, WList (map (fun l => l ++ l) ws)))
  end.
(* img.py:191-194: the matrix whose real part is the image (inverse FFT; recenter left out) *)
Definition ifft2 (n : Z) (m : Z -> C) (x y : Z) : C :=
  let cells := list_prod (zrange 0 (n - 1)) (zrange 0 (n - 1)) in
  cscale (/ IZR (n * n)) (fold_right (fun '(a, b) s =>
     let th := 2 * PI * IZR (a * x + b * y) / IZR n in cadd (cmul (m (a * n + b)%Z) (cos th, sin th)) s) (0, 0) cells).

(* ---------------- ImgW ---------------- *)
Section ImgW.
(* np.fft.ifft2(np.fft.fft2(m) * conv_invker(w)), and np.round *)
Variables (wproj : R -> (Z -> C) -> (Z -> C)) (rnd : R -> Z).
Definition w_of (p : R * R * R) : R := snd p.
Definition ssqrt (w : R) : R := if Rltb w 0 then - sqrt (- w) else sqrt w.    (* sqrt(|w|)*sign(w) *)
Definition avg (l : list R) : R := fold_right Rplus 0 l / INR (length l).
(* a.take(order) *)
Definition take {A} (d : A) (order : list nat) (l : list A) : list A := map (fun i => nth i l d) order.
Definition slice {A} (i j : nat) (l : list A) : list A := firstn (j - i) (skipn i l).
(* searchsorted of a sorted array: the first position whose element is >= x *)
Fixpoint searchsorted (l : list R) (x : R) : nat :=
  match l with [] => 0%nat | y :: r => if Rltb y x then S (searchsorted r x) else 0%nat end.
(* img.py:252-272, 277-300: the chunks [i, j); None if the loop has not ended after `fuel` turns *)
Fixpoint chunks (fuel : nat) (wres : R) (sq : list R) (i : nat) : option (list (nat * nat)) :=
  match fuel with
  | O => None
  | S fuel => let j := searchsorted sq (nth i sq 0 + wres) in
              if (length sq <=? j)%nat then Some [(i, j)]
              else match chunks fuel wres sq j with None => None | Some cs => Some ((i, j) :: cs) end
  end.
Definition madd (a b : Z -> C) : Z -> C := fun k => cadd (a k) (b k).
Fixpoint zip_with {A B D} (f : A -> B -> D) (l : list A) (m : list B) : list D :=
  match l, m with a :: l, b :: m => f a b :: zip_with f l m | _, _ => [] end.
(* img.py:233-272 ImgW.put; `order` is np.argsort(w); Some Err is an exception, None no return *)
Fixpoint put_chunks (n : Z) (res : R) (nb : nat) (uvw : list (R * R * R)) (data : list C) (wgts : list (list C))
    (cs : list (nat * nat)) (m : (Z -> C) * list (Z -> C)) : Base.res ((Z -> C) * list (Z -> C)) :=
  match cs with
  | [] => Ok m
  | (i, j) :: cs =>
      let aw := avg (map w_of (slice i j uvw)) in
      bind (put_on n res (slice i j uvw) (slice i j data) (map (slice i j) wgts) (zeros, repeat zeros nb)) (fun '(uv, bm) =>
      put_chunks n res nb uvw data wgts cs (madd (fst m) (wproj aw uv), zip_with (fun b x => madd b (wproj aw x)) (snd m) bm))
  end.
(* img.py:237-243, 249: as norm_wgts, but the elements go through .take(order), which turns a
   single number into an array of one *)
Definition norm_wgts_w (nb len : nat) (w : warg) : res (list (list C)) :=
  match w with
  | WBare l => if Nat.eqb nb 1 then Ok [l]
               else if Nat.eqb (length l) nb && Nat.eqb len 1 then Ok (map (fun x => [x]) l) else Err
  | _ => norm_wgts nb len w
  end.
Definition imgw_put (fuel : nat) (wres : R) (order : list nat) (im : img) (uvw : list (R * R * R)) (data : list C) (w : warg) : option (res img) :=
  if Nat.eqb (length uvw) 0 then Some (Ok im)
  else match norm_wgts_w (length (i_bm im)) (length data) w with
       | Err => Some Err
       | Ok wgts =>
           let uvw' := take (0, 0, 0) order uvw in
           if (length data <? length uvw)%nat || existsb (fun l => (length l <? length uvw)%nat) wgts then Some Err (* IndexError of take *)
           else match chunks fuel wres (map (fun p => ssqrt (w_of p)) uvw') 0 with
           | None => None
           | Some cs => Some (bind (put_chunks (i_n im) (i_res im) (length (i_bm im)) uvw' (take (0, 0) order data) (map (take (0, 0) order) wgts) cs (i_uv im, i_bm im))
                                   (fun '(uv, bm) => Ok (Img (i_n im) (i_res im) uv bm)))
           end
       end.
(* img.py:273-304 ImgW.get; the cache maps the rounded plane number to the projected matrices *)
Definition wcache := list (Z * ((Z -> C) * (Z -> C))).
Fixpoint find_plane (c : wcache) (id : Z) : option ((Z -> C) * (Z -> C)) :=
  match c with [] => None | (k, p) :: c => if (k =? id)%Z then Some p else find_plane c id end.
Fixpoint get_chunks (n : Z) (res wres : R) (uv bm : Z -> C) (uvw : list (R * R * R)) (cs : list (nat * nat)) (cache : wcache) : Base.res (list (option C) * wcache) :=
  match cs with
  | [] => Ok ([], cache)
  | (i, j) :: cs =>
      let sl := slice i j uvw in
      let id := rnd (avg (map (fun p => ssqrt (w_of p)) sl) / wres) in
      let '(plane, cache) :=
        match find_plane cache id with
        | Some p => (p, cache)
        | None => let aw := avg (map w_of sl) in let p := (wproj (- aw) uv, wproj (- aw) bm) in (p, (id, p) :: cache)
        end in
      bind (get_uv n res sl (fst plane) (snd plane)) (fun d =>
      bind (get_chunks n res wres uv bm uvw cs cache) (fun '(ds, cache) => Ok (d ++ ds, cache)))
  end.
(* np.argsort of a permutation of 0..n-1: the position of each index *)
Definition index_of (order : list nat) (k : nat) : nat :=
  (fix go (l : list nat) := match l with [] => 0%nat | x :: r => if Nat.eqb x k then 0%nat else S (go r) end) order.
Definition deorder (order : list nat) : list nat := map (index_of order) (seq 0 (length order)).
(* one sample or none: the squeezed arrays cannot be indexed (IndexError) *)
Definition imgw_get (fuel : nat) (wres : R) (order : list nat) (im : img) (cache : wcache) (uvw : list (R * R * R)) : option (res (list (option C) * wcache)) :=
  if (length uvw <? 2)%nat then Some Err
  else let uvw' := take (0, 0, 0) order uvw in
       match i_bm im, chunks fuel wres (map (fun p => ssqrt (w_of p)) uvw') 0 with
       | bm :: _, Some cs => Some (bind (get_chunks (i_n im) (i_res im) wres (i_uv im) bm uvw' cs cache) (fun '(d, cache) =>
                                        Ok (take None (deorder order) d, cache)))
       | _, None => None
       | [], _ => Some Err
       end.
End ImgW.
