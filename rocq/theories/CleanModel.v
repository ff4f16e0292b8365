(* The CLEAN loops of aipy/_deconv/deconv.cpp and the clean() function of aipy/deconv.py.
   Simplifications: numbers are exact reals (complex numbers: pairs of reals), so rounding,
   overflow and the infinities made by a kernel that is zero all over the area are outside
   the model; arrays are functions from index to value (strides and buffers are not
   modelled); the four copies of the loop in the source (1d/2d, real/complex), which differ
   only in how indices wrap and how values are multiplied, are one definition instantiated
   four times; printing is left out. *)
From Coq Require Import Reals.
From Verif Require Import Base.
Open Scope R_scope.

Definition Rltb (x y : R) : bool := if Rlt_dec x y then true else false.

Section Clean.
Context {I V : Type}.
Variables (ieq : I -> I -> bool) (cells : list I) (wrap : I -> I -> I) (origin : I).
Variables (vzero : V) (vadd vsub vmul : V -> V -> V) (scale : R -> V -> V) (norm2 : V -> R) (vpos : V -> bool)
          (inverse : V -> R -> V).
(* the criterion compared with tol: deconv.cpp:140 takes an absolute value, 233, 354, 465 do not *)
Variable change : R -> R -> R.
Variables (ker : I -> V) (area : I -> Z) (gain tol : R) (maxiter : Z) (stop_if_div pos_def : bool).

Definition setf (f : I -> V) (i : I) (v : V) : I -> V := fun j => if ieq i j then v else f j.
(* the mask has 8-byte entries of which the loops read the low 4 bytes as an int (IND1/IND2
   with type int), so an entry counts iff it is not a multiple of 2^32 *)
Definition in_area (i : I) : bool := negb (area i mod 4294967296 =? 0)%Z.

(* deconv.cpp:70-81, 176-184, 272-285, 395-406: largest kernel value inside the area *)
Definition kernel_gain : V :=
  let '(q, mq) := fold_left (fun '(q, mq) n => if Rltb mq (norm2 (ker n)) && in_area n then (ker n, norm2 (ker n)) else (q, mq))
                            cells (vzero, 0) in
  inverse q mq.

(* deconv.cpp:89-106, 192-204, 294-316, 416-434: subtract the shifted kernel, score, next maximum *)
Record pass := Pass { p_res : I -> V; p_nscore : R; p_mmax : R; p_max : V; p_narg : I }.
Definition pass1 (arg : I) (step : V) (p : pass) (n : I) : pass :=
  let w := wrap n arg in
  let val := vsub (p_res p w) (vmul (ker n) step) in
  let res := setf (p_res p) w val in
  if Rltb (p_mmax p) (norm2 val) && (negb pos_def || vpos val) && in_area w
  then Pass res (p_nscore p + norm2 val) (norm2 val) val w
  else Pass res (p_nscore p + norm2 val) (p_mmax p) (p_max p) (p_narg p).
(* deconv.cpp:116-123, 215-218, 325-335, 443-448: put the shifted kernel back *)
Definition undo1 (arg : I) (step : V) (res : I -> V) (n : I) : I -> V :=
  let w := wrap n arg in setf res w (vadd (res w) (vmul (ker n) step)).
(* deconv.cpp:127-137, 221-226, 337-348, 451-458: buffer the state before the last step; the
   residual buffer is filled cell by cell, the model buffer copied *)
Definition buffer1 (arg : I) (step : V) (res : I -> V) (best : I -> V) (n : I) : I -> V :=
  let w := wrap n arg in setf best w (vadd (res w) (vmul (ker n) step)).

Record state := State { s_i : Z; s_mdl : I -> V; s_res : I -> V; s_score : R; s_nscore : R; s_best : R; s_first : R;
                        s_max : V; s_arg : I; s_bmdl : I -> V; s_bres : I -> V }.
Definition outcome := (Z * (I -> V) * (I -> V))%type.      (* return value, mdl, res *)

(* one turn of the loop: deconv.cpp:84-147, 187-239, 289-360, 411-471; the closing i++ of
   the for statement included *)
Definition turn (q : V) (s : state) : state + outcome :=
  let arg := s_arg s in
  let step := scale gain (vmul (s_max s) q) in
  let mdl := setf (s_mdl s) arg (vadd (s_mdl s arg) step) in
  let p := fold_left (pass1 arg step) cells (Pass (s_res s) 0 (-1) (s_max s) arg) in
  let res := p_res p in
  let nscore := sqrt (p_nscore p / INR (length cells)) in
  let first := if Rltb (s_first s) 0 then nscore else s_first s in
  let next i best bmdl bres := inl (State (i + 1) mdl res nscore nscore best first (p_max p) (p_narg p) bmdl bres) in
  if Rltb 0 (s_score s) && Rltb (s_score s) nscore then
    if stop_if_div
    then inr ((- s_i s)%Z, setf mdl arg (vsub (mdl arg) step), fold_left (undo1 arg step) cells res)
    else if Rltb (s_best s) 0 || Rltb (s_score s) (s_best s)
    then next 0%Z (s_score s) (setf mdl arg (vsub (mdl arg) step)) (fold_left (buffer1 arg step res) cells (s_bres s))
    else next (s_i s) (s_best s) (s_bmdl s) (s_bres s)
  else if Rltb 0 (s_score s) && Rltb (change (s_score s) nscore / first) tol
  then inr (s_i s, mdl, res)
  else if negb stop_if_div && (Rltb (s_best s) 0 || Rltb nscore (s_best s))
  then next 0%Z (s_best s) (s_bmdl s) (s_bres s)
  else next (s_i s) (s_best s) (s_bmdl s) (s_bres s).
(* deconv.cpp:149-158, 240-249, 361-373, 472-482 *)
Definition finish (s : state) : outcome :=
  if Rltb 0 (s_best s) && Rltb (s_best s) (s_nscore s) then (maxiter, s_bmdl s, s_bres s) else (maxiter, s_mdl s, s_res s).
(* the for statement: None if it has not ended after `fuel` turns *)
Fixpoint loop (fuel : nat) (q : V) (s : state) : option outcome :=
  match fuel with
  | O => None
  | S fuel => if (s_i s <? maxiter)%Z
              then match turn q s with inl s' => loop fuel q s' | inr r => Some r end
              else Some (finish s)
  end.
Definition start (mdl res : I -> V) : state := State 0 mdl res (-1) 0 (-1) (-1) vzero origin (fun _ => vzero) (fun _ => vzero).
Definition clean_loop (fuel : nat) (mdl res : I -> V) : option outcome := loop fuel kernel_gain (start mdl res).
End Clean.

(* ---- the four instances ---- *)
Definition cells1 (dim : nat) : list nat := seq 0 dim.
Definition wrap1 (dim : nat) (n a : nat) : nat := ((n + a) mod dim)%nat.
Definition cells2 (d1 d2 : nat) : list (nat * nat) := list_prod (seq 0 d1) (seq 0 d2).
Definition wrap2 (d1 d2 : nat) (n a : nat * nat) : nat * nat := (((fst n + fst a) mod d1)%nat, ((snd n + snd a) mod d2)%nat).
Definition eqb2 (a b : nat * nat) : bool := Nat.eqb (fst a) (fst b) && Nat.eqb (snd a) (snd b).
Definition C := (R * R)%type.
Definition cadd (a b : C) : C := (fst a + fst b, snd a + snd b).
Definition csub (a b : C) : C := (fst a - fst b, snd a - snd b).
Definition cmul (a b : C) : C := (fst a * fst b - snd a * snd b, fst a * snd b + snd a * fst b).
Definition cscale (g : R) (a : C) : C := (g * fst a, g * snd a).
Definition cnorm2 (a : C) : R := fst a * fst a + snd a * snd a.
(* deconv.cpp:286-287, 407-408 *)
Definition cinverse (q : C) (mq : R) : C := (fst q / mq, - snd q / mq).
(* deconv.cpp:185, 82 *)
Definition rinverse (q : R) (mq : R) : R := 1 / q.

(* deconv.cpp:163-249 *)
Definition clean_1d_r (dim : nat) ker area gain tol maxiter stop_if_div pos_def fuel mdl res : option (outcome (I:=nat) (V:=R)) :=
  clean_loop Nat.eqb (cells1 dim) (wrap1 dim) 0%nat 0 Rplus Rminus Rmult Rmult (fun v => v * v) (fun v => Rltb 0 v) rinverse
    (fun a b => a - b) ker area gain tol maxiter stop_if_div pos_def fuel mdl res.
(* deconv.cpp:55-158 *)
Definition clean_2d_r (d1 d2 : nat) ker area gain tol maxiter stop_if_div pos_def fuel mdl res : option (outcome (I:=nat*nat) (V:=R)) :=
  clean_loop eqb2 (cells2 d1 d2) (wrap2 d1 d2) (0, 0)%nat 0 Rplus Rminus Rmult Rmult (fun v => v * v) (fun v => Rltb 0 v) rinverse
    (fun a b => Rabs (a - b)) ker area gain tol maxiter stop_if_div pos_def fuel mdl res.
(* deconv.cpp:379-483; pos_def is not used *)
Definition clean_1d_c (dim : nat) ker area gain tol maxiter stop_if_div (pos_def : bool) fuel mdl res : option (outcome (I:=nat) (V:=C)) :=
  clean_loop Nat.eqb (cells1 dim) (wrap1 dim) 0%nat (0, 0) cadd csub cmul cscale cnorm2 (fun _ => true) cinverse
    (fun a b => a - b) ker area gain tol maxiter stop_if_div false fuel mdl res.
(* deconv.cpp:256-372; pos_def is not used *)
Definition clean_2d_c (d1 d2 : nat) ker area gain tol maxiter stop_if_div (pos_def : bool) fuel mdl res : option (outcome (I:=nat*nat) (V:=C)) :=
  clean_loop eqb2 (cells2 d1 d2) (wrap2 d1 d2) (0, 0)%nat (0, 0) cadd csub cmul cscale cnorm2 (fun _ => true) cinverse
    (fun a b => a - b) ker area gain tol maxiter stop_if_div false fuel mdl res.

(* aipy/deconv.py:24-69 clean(): the call around the loop. `conv` stands for
   ifft(fft(mdl)*fft(ker)), which numpy computes (taken to be the circular convolution);
   the result is (mdl, res, term, iter). *)
Inductive term := TDivergence | TTol | TMaxiter.
Definition clean_py {I V : Type} (vzero : V) (vsub : V -> V -> V) (conv : (I -> V) -> (I -> V))
    (loop : (I -> Z) -> (I -> V) -> (I -> V) -> option (outcome (I:=I) (V:=V))) (maxiter : Z)
    (im : I -> V) (mdl : option (I -> V)) (area : option (I -> Z)) : option ((I -> V) * (I -> V) * term * Z * bool) :=
  let '(m, r) := match mdl with
                 | None => (fun _ => vzero, im)
                 | Some m => (m, fun i => vsub (im i) (conv m i))
                 end in
  let ar := match area with None => fun _ => 1%Z | Some a => a end in
  match loop ar m r with
  | None => None
  | Some (iter, m', r') =>
      Some (m', r', if (iter <? 0)%Z then TDivergence else if (iter <? maxiter)%Z then TTol else TMaxiter,
            Z.abs iter, ((0 <? iter) && (iter <? maxiter))%Z)
  end.
