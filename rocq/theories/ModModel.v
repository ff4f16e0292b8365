(* scripts/modmap.py:40-122: a map is started or read from a file, turned into the output
   coordinates, sources are added and it is saved. Sources are given by the J2000 direction of
   their catalog entry, their shape, their strength in Jy at the frequency asked for and their index.
   `precess` is ephem's change from J2000 to --oepoch, `convert` is the matrix of
   convert_m('eq', osys, oepoch=oepoch), `toin` that of convert_m(osys, isys, oepoch, iepoch), and
   `angles` is the azimuth and latitude of a direction. Numbers are exact. A shape with a zero
   axis gives numpy inf or nan, which are not <= 1. Simplifications: `fmt` says that --dtype is
   given (its rounding is `cast`); the case of indices in the map with --nindices 0, where
   numpy is asked to add a number to a pair, is Err and no theorem is about it. *)
From Coq Require Import Reals Ascii String.
From Verif Require Import Base ScriptModel CleanModel HpxModel FitsModel MapfModel.
Local Open Scope Z_scope.
Local Notation length := List.length.

Section Mod.
Variable Dir : Type.
Variables ring2nest nest2ring : Z -> Z -> Z.
Variable pixel : Z -> scheme -> Dir -> Z.
Variable centre : Z -> scheme -> Z -> Dir.
Variable interp_weights : Z -> scheme -> Dir -> list (Z * R).
Variable angles : Dir -> R * R.
Variables precess convert toin : Dir -> Dir.

Record body := Body { b_pos : Dir; b_a1 : R; b_a2 : R; b_th : R; b_jys : R; b_index : R }.

(* modmap.py:92, 98-101: delta <= 1 *)
Definition within (s : body) (d : Dir) : bool :=
  let '(ra, dec) := angles (precess (b_pos s)) in let '(phi, lat) := angles d in
  let dra := (phi - ra)%R in let ddec := (lat - dec)%R in
  let da1 := (dra * cos (b_th s) - ddec * sin (b_th s))%R in
  let da2 := (dra * sin (b_th s) + ddec * cos (b_th s))%R in
  if Req_EM_T (b_a1 s) 0 then false else if Req_EM_T (b_a2 s) 0 then false else
  if Rle_dec ((da1 / b_a1 s) * (da1 / b_a1 s) + (da2 / b_a2 s) * (da2 / b_a2 s)) 1 then true else false.
(* modmap.py:101-107 *)
Definition footprint (h : hpm) (s : body) : list Z :=
  match filter (fun p => within s (centre (h_nside h) (h_scheme h) p)) (arange (npix (h_nside h))) with
  | [] => [pixel (h_nside h) (h_scheme h) (convert (precess (b_pos s)))]
  | px => px
  end.
Notation map_get := (map_get Dir pixel interp_weights).
Notation map_put := (map_put Dir pixel).
Notation getitem := (getitem Dir pixel interp_weights).
Notation setitem := (setitem Dir pixel).
(* modmap.py:110-117: one pixel *)
Definition add_px (nind : nat) (each index : R) (k : skymap) (p : Z) : res skymap :=
  bind (map_get k (Px _ [p])) (fun '(f, i) =>
  match nind, i with
  | O, [] => map_put k (Px _ [p]) [1%R] (map (fun x => each + x)%R f) []
  | S _, _ :: _ => map_put k (Px _ [p]) [1%R] (map (fun x => each + x)%R f) [[index]]
  | _, _ => Err
  end).
Fixpoint foldM {A B} (f : A -> B -> res A) (l : list B) (a : A) : res A :=
  match l with [] => Ok a | x :: r => bind (f a x) (foldM f r) end.
(* modmap.py:85-117: one source *)
Definition add_source (nind : nat) (sscale : R) (k : skymap) (s : body) : res skymap :=
  let px := footprint (k_map k) s in
  let strength := (b_jys s * sscale)%R in
  foldM (add_px nind (strength / INR (length px)) (b_index s)) px k.

(* modmap.py:57-64 *)
Definition with_interp (h : hpm) (i : bool) : hpm := Hpm (h_nside h) (h_scheme h) (h_map h) i.
Definition resample (px : list Z) (ds : list Dir) (h : hpm) : res hpm :=
  let h := with_interp h true in
  bind (getitem h (At _ ds)) (fun v => bind (setitem h (Px _ px) (Arr v)) (fun h => Ok (with_interp h false))).
Definition import (mscale : R) (k : skymap) : res skymap :=
  let m := with_map (k_map k) (map (fun x => x * mscale)%R (h_map (k_map k))) in
  let px := arange (npix (h_nside m)) in
  let ds := map (fun p => toin (centre (h_nside m) (h_scheme m) p)) px in
  bind (resample px ds m) (fun m => bind (resample px ds (k_wgt k)) (fun w =>
  bind (mapM (resample px ds) (k_ind k)) (fun i => Ok (Sky m w i)))).

Record opts := Opts { o_in : option str; o_nside : option Z; o_fmt : bool; o_nind : nat; o_mscale : R; o_sscale : R; o_out : str }.
(* modmap.py:46-70 *)
Definition start (f : tables) (o : opts) : res skymap :=
  match o_in o with
  | None =>
      match o_nside o with None => Err | Some n => make_map f n RING false None (Some (o_nind o)) end
  | Some name =>
      bind (make_map f 1 RING false (Some name) None) (fun imap =>
      bind (match o_nside o, o_fmt o with
            | None, false => Ok imap
            | ns, _ =>
                bind (make_map f (match ns with Some n => n | None => h_nside (k_map imap) end) RING false None (Some (o_nind o))) (fun h =>
                from_map Dir ring2nest nest2ring pixel centre interp_weights h imap)
            end) (import (o_mscale o)))
  end.
(* the whole run *)
Definition modmap (old : bool) (cast : R -> R) (f : tables) (o : opts) (cat : list body) : res tables :=
  bind (start f o) (fun h => bind (foldM (add_source (o_nind o) (o_sscale o)) cat (reset_wgt h 1)) (fun h =>
  map_to_fits old cast f (o_out o) false [] h)).
End Mod.
