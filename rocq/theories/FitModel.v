(* The least-square, maximum-entropy and annealing deconvolutions: aipy/deconv.py:79-270.
   Simplifications: images are real, of one shape d1 x d2, and are functions from pixel to value;
   numbers are exact reals, and where the source would make an infinity or a nan the model says so
   (`None`); ifft2(fft2(x)*fft2(ker)).real, which numpy computes, is taken to be the circular
   convolution of x and ker; printing is left out. *)
From Coq Require Import Reals.
From Verif Require Import Base CleanModel CleanSpec.
Open Scope R_scope.

Definition image := (nat * nat -> R)%type.
(* np.clip(v, lower, upper); upper None is np.inf *)
Definition clip (lower : R) (upper : option R) (v : R) : R :=
  let v := if Rltb v lower then lower else v in
  match upper with Some u => if Rltb u v then u else v | None => v end.
Inductive ending := EMaxiter | ETol | EDivergence.
Record info := Info { i_success : bool; i_term : ending; i_res : image; i_score : R; i_iter : nat }.

Section Fit.
Variables (d1 d2 : nat) (im ker : image).
Definition pixels : list (nat * nat) := cells2 d1 d2.
Definition isum (f : image) : R := fold_right Rplus 0 (map f pixels).
(* np.average *)
Definition average (f : image) : R := isum f / INR (d1 * d2).
Definition convolved (x : image) : image := conv2 d1 d2 ker x.
(* np.sqrt((ker**2).sum()): deconv.py:103, 151, 256 *)
Definition q : R := sqrt (isum (fun p => ker p * ker p)).
Definition residual (x : image) : image := fun p => im p - convolved x p.

Section Lsq.
Variables (area : nat * nat -> Z) (gain tol lower : R) (upper : option R).
(* deconv.py:107-112 *)
Definition chi2_of (x : image) : image * image :=
  let diff p := residual x p * IZR (area p) in
  (fun p => Rabs (diff p) * Rabs (diff p), fun p => - 2 * q * diff p).
(* deconv.py:127 *)
Definition lsq_dx (chi2 g_chi2 : image) : image :=
  fun p => if Rltb 0 (Rabs (g_chi2 p)) then - (1 / g_chi2 p) * chi2 p else 0.
(* deconv.py:115-128; one turn: Some (x, score) to go on, None at the break. With n_score 0 the
   division makes nan or an infinity, which is not below tol *)
Definition lsq_turn (x : image) (score : R) : option (image * R) :=
  let '(chi2, g_chi2) := chi2_of x in
  let n_score := average chi2 in
  if (if Req_EM_T n_score 0 then false else Rltb (Rabs (1 - score / n_score)) tol) then None
  else Some (fun p => clip lower upper (x p + gain * lsq_dx chi2 g_chi2 p), n_score).
(* the loop over i in range(i, maxiter); n turns are left *)
Fixpoint lsq_loop (n i : nat) (x : image) (score : R) : image * ending * R * nat :=
  match n with
  | O => (x, EMaxiter, score, i)
  | S n => match lsq_turn x score with
           | None => (x, ETol, score, S i)
           | Some (x, score) => lsq_loop n (S i) x score
           end
  end.
End Lsq.
(* deconv.py:79-132. maxiter 0 leaves `i` unbound: an error. area is truncated to integers by
   astype before (given as integers here) *)
Definition lsq (mdl : option image) (area : option (nat * nat -> Z)) (gain tol : R) (maxiter : nat) (lower : R) (upper : option R) : res (image * info) :=
  let x := match mdl with Some m => m | None => fun _ => 0 end in
  let a := match area with Some a => a | None => fun _ => 1%Z end in
  match maxiter with
  | O => Err
  | _ => let '(x, term, score, i) := lsq_loop a gain tol lower upper maxiter 0 x 0 in
         Ok (x, Info true term (residual x) score i)
  end.

Section Maxent.
Variables (m : image) (nvar0 gain tol lower : R) (upper : option R).
(* deconv.py:157-179 next_step. nan or an infinite score (`None` in the first place) comes from
   the logarithm of something not positive, a pixel of m that is zero, a zero of gg_J or of
   dot(1,1). The step is not finite (`None` in the second place) when dot(g_chi2,g_chi2) is 0. *)
Record metric := Metric { g_chi2 : image; g_j : image; gg_j : image; chi2 : R }.
Definition metric_of (b : image) (alpha : R) : metric :=
  let diff := residual b in
  let g := fun p => - 2 * q * diff p in
  Metric g (fun p => (- ln (b p / m p) - 1) - alpha * g p) (fun p => - 1 / b p - alpha * (2 * (q * q)))
         (isum (fun p => diff p * diff p) - nvar0).
Definition dot (t : metric) (x y : image) : R := isum (fun p => x p * y p / - gg_j t p).
Definition bad_pixel (t : metric) (b : image) (p : nat * nat) : bool :=
  (if Req_EM_T (m p) 0 then true else negb (Rltb 0 (b p / m p))) || (if Req_EM_T (gg_j t p) 0 then true else false).
Definition score_of (t : metric) (b : image) : option R :=
  let one : image := fun _ => 1 in
  if existsb (bad_pixel t b) pixels then None
  else if Req_EM_T (dot t one one) 0 then None else Some (dot t (g_j t) (g_j t) / dot t one one).
Definition next_step (b : image) (alpha : R) : option R * option (image * R) :=
  let t := metric_of b alpha in
  let gg := dot t (g_chi2 t) (g_chi2 t) in
  (score_of t b,
   if Req_EM_T gg 0 then None
   else let d_alpha := (chi2 t + dot t (g_chi2 t) (g_j t)) / gg in
        Some (fun p => - 1 / gg_j t p * (g_j t p - d_alpha * g_chi2 t p), d_alpha)).
(* deconv.py:180-193. The result: the model (None: it is not made of finite numbers), how the loop
   ended, the score last computed (None: nan or infinite), iterations. After a step that is not
   finite the next score is nan. *)
Fixpoint maxent_loop (n i : nat) (s : option (image * R)) (score : option R) : option image * ending * option R * nat :=
  match n with
  | O => (option_map fst s, EMaxiter, score, i)
  | S n =>
    match s with
    | None => (None, EDivergence, None, S i)
    | Some (b, alpha) =>
      match next_step b alpha with
      | (None, _) => (Some b, EDivergence, None, S i)
      | (Some score, d) =>
        if Rltb score tol && Rltb 0 score then (Some b, ETol, Some score, S i)
        else if Rltb 10000000000 score || negb (Rltb 0 score) then (Some b, EDivergence, Some score, S i)
        else maxent_loop n (S i)
               (match d with
                | None => None
                | Some (db, dalpha) => Some (fun p => clip lower upper (b p + gain * db p), alpha + gain * dalpha)
                end) (Some score)
      end
    end
  end.
End Maxent.
Record minfo := MInfo { m_success : bool; m_term : ending; m_res : option image; m_score : option R; m_iter : nat }.
(* deconv.py:134-197; maxiter 0 leaves `score` unbound. With a kernel of sum 0 and no mdl the
   first model is not finite *)
Definition maxent (var0 : R) (mdl : option image) (gain tol : R) (maxiter : nat) (lower : R) (upper : option R) : res (option image * minfo) :=
  let m : option image := match mdl with
           | Some m => Some m
           | None => if Req_EM_T (isum ker) 0 then None else Some (fun _ => average im / isum ker)
           end in
  match maxiter with
  | O => Err
  | _ => let '(b, term, score, i) := maxent_loop (match m with Some m => m | None => im end) (INR (d1 * d2) * var0) gain tol lower upper
                                       maxiter 0 (option_map (fun m => (m, 0)) m) None in
         Ok (b, MInfo (match term with EDivergence => false | _ => true end) term (option_map residual b) score i)
  end.

(* deconv.py:199-238 maxent_findvar. Without var, lsq is called with the float maxiter/4, which
   range() refuses. The factor 1.2**(1./(2*(cnt+1))). The two while loops get `fuel`; None: not
   ended within it *)
Section Findvar.
Variables (var gain tol lower : R) (upper : option R) (mdl : option image) (maxiter : nat) (maxiterok : bool).
Definition accepted (i : minfo) : bool := m_success i && (maxiterok || match m_term i with ETol => true | _ => false end).
(* the inner loop with cnt >= 0: None out of fuel, Some (Ok None) the range is exhausted *)
Fixpoint search_in (fuel : nat) (cnt : nat) (v : R) : option (res (option (option image * minfo))) :=
  match fuel with
  | O => None
  | S fuel =>
    if Rltb v (var * 1.5 ^ cnt) then
      match maxent v mdl gain tol maxiter lower upper with
      | Err => Some Err
      | Ok (c, i) => if accepted i then Some (Ok (Some (c, i))) else search_in fuel cnt (v * Rpower 1.2 (1 / (2 * INR (cnt + 1))))
      end
    else Some (Ok None)
  end.
Fixpoint search_out (fuel : nat) (cnt : nat) : option (res (option image * minfo)) :=
  match fuel with
  | O => None
  | S f => match search_in fuel cnt (var / 1.5 ^ cnt) with
           | None => None
           | Some Err => Some Err
           | Some (Ok (Some r)) => Some (Ok r)
           | Some (Ok None) => search_out f (S cnt)
           end
  end.
End Findvar.
Definition maxent_findvar (fuel : nat) (var : option R) (mdl : option image) (gain tol : R) (maxiter : nat) (lower : R) (upper : option R) (maxiterok : bool)
    : option (res (option image * minfo)) :=
  match var with
  | None => Some Err
  | Some var => match maxent var mdl gain tol maxiter lower upper with
                | Err => Some Err
                | Ok (c, i) => if accepted maxiterok i then Some (Ok (c, i)) else search_out var gain tol lower upper mdl maxiter maxiterok fuel 0
                end
  end.

(* deconv.py:240-270 anneal. `noise i` is the image drawn by np.random.normal at turn i, `cooling`
   the function given. With ker zero all over, dif/q is not finite, and no model is ever taken up;
   here dif/0 is some number, and none is either *)
Section Anneal.
Variables (lower : R) (upper : option R) (noise : nat -> image) (cooling : nat -> image -> image).
Definition try_model (i : nat) (mdl dif : image) : image :=
  let scale := cooling i (fun p => dif p / q) in
  fun p => clip lower upper (mdl p + noise i p * scale p).
Definition mean_square (dif : image) : R := average (fun p => dif p * dif p).
Fixpoint anneal_loop (n i : nat) (mdl dif : image) (score : R) : image * image * R :=
  match n with
  | O => (mdl, dif, score)
  | S n =>
    let n_mdl := try_model i mdl dif in
    let n_dif := residual n_mdl in
    let n_score := mean_square n_dif in
    if Rltb n_score score then anneal_loop n (S i) n_mdl n_dif n_score else anneal_loop n (S i) mdl dif score
  end.
Definition anneal (mdl : option image) (maxiter : nat) : res (image * info) :=
  let mdl := match mdl with Some m => m | None => fun _ => 0 end in
  let dif := residual mdl in
  match maxiter with
  | O => Err
  | _ => let '(m, dif, score) := anneal_loop maxiter 0 mdl dif (mean_square dif) in Ok (m, Info true EMaxiter dif score maxiter)
  end.
End Anneal.
End Fit.
