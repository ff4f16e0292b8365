(* Further scripts that rewrite a UV data set record by record: scripts/phs2src.py and flux_cal.py,
   in the setting of CmdModel.v. The array and the source belong to the user's calibration file:
   what they compute is a parameter, for the time the array is set to. *)
From Coq Require Import String Reals.
From Verif Require Import Base UvModel PipeModel CmdModel.
Open Scope Z_scope.
Local Notation length := List.length.

(* phs2src.py:28, flux_cal.py:38: cat.values()[0]. values() of a dict can be subscripted in Python 2
   only (SrcCatalog is a dict, phs.py:126). *)
Definition first_value {A} (subscriptable : bool) (l : list A) : res A :=
  if subscriptable then match l with x :: _ => Ok x | [] => Err end else Err.
(* phs2src.py:25-31: no source, a name that begins with zen, or the first source of the catalogue *)
Inductive source (A : Type) := NoSource | Zenith | Named (s : A).
Arguments NoSource {A}. Arguments Zenith {A}. Arguments Named {A} s.
Definition choose_source {A} (subscriptable : bool) (opt : option string) (cat : list A) : res (source A) :=
  match opt with
  | None => Ok NoSource
  | Some s => if String.eqb (substring 0 3 s) "zen" then Ok Zenith
              else bind (first_value subscriptable cat) (fun s => Ok (Named s))
  end.

(* what a phasing function does to a spectrum: PointingError, or another exception *)
Inductive turned := Turned (s : list (list Z)) | Below | Raises.

Section Host.
Variable feq8 feq4 : list Z -> list Z -> bool.
Variable fl2int : list Z -> Z.
Variable active : string -> bool.      (* the polarisations set_active_pol takes *)

(* `if curtime != t: curtime = t; aa.set_jultime(t)`: the time the array is at *)
Definition array_time (cur : option (list Z)) (t : list Z) : list Z :=
  match cur with Some c => if feq8 c t then c else t | None => t end.

(* ---------- phs2src.py:36-55 phs, without --rot_uvw ---------- *)
(* unphs, offs, turn: aa.unphs2src of the moduli, the removal of the phase offset, aa.phs2src;
   zeroed: a channel times 0 *)
Definition phs (setphs has_src : bool) (unphs offs turn : string -> list Z -> Z -> Z -> list (list Z) -> turned) (zeroed : list Z -> list Z)
    (cur : option (list Z)) (r : reader) (x : urec) : res (option (list Z) * option urec) :=
  bind (uv_pol r) (fun k => bind (pol2str str2pol k) (fun p =>
  if negb (active p) then Err else
  let t := array_time cur (r_t x) in
  if ant_i fl2int x =? ant_j fl2int x then Ok (Some t, Some x) else
  match (if setphs then unphs else if has_src then turn else offs) p t (ant_i fl2int x) (ant_j fl2int x) (cells (r_n x) (r_corr x)) with
  | Turned s => Ok (Some t, Some (same_preamble_as x s (r_fl x)))
  | Below => Ok (Some t, Some (same_preamble_as x (map zeroed (cells (r_n x) (r_corr x))) (r_fl x)))
  | Raises => Err
  end)).

(* ---------- flux_cal.py:48-70 mfunc ---------- *)
Variable cmul cdiv : list Z -> list Z -> list Z.
Variable ciszero : list Z -> bool.
Variable one : list Z.
(* a factor that is not asked for is the number 1 *)
Definition times (a b : option (list (list Z))) : res (option (list (list Z))) :=
  match a, b with
  | None, _ => Ok b
  | _, None => Ok a
  | Some a, Some b => bind (bcast cmul a b) (fun c => Ok (Some c))
  end.
(* pb: aa.passband(i,j); resp: aa.bm_response(i,j), None when the source is below the horizon (the
   cache has no s_top: KeyError); spec: s.get_jys(). Without -f sim_cache is not called and the cache
   is None since set_jultime: bm_response raises TypeError. *)
Definition flux_cal (passband beam srcflux : bool) (pb : string -> Z -> Z -> list (list Z)) (resp : string -> list Z -> Z -> Z -> option (list (list Z)))
    (spec : list Z -> list (list Z)) (cur : option (list Z)) (r : reader) (x : urec) : res (option (list Z) * option urec) :=
  bind (uv_pol r) (fun k => bind (pol2str str2pol k) (fun p =>
  if negb (active p) then Err else
  let t := array_time cur (r_t x) in let i := ant_i fl2int x in let j := ant_j fl2int x in
  bind (if beam then if srcflux then match resp p t i j with Some b => Ok (Some b) | None => Err end else Err else Ok None) (fun bm =>
  bind (times (if passband then Some (pb p i j) else None) bm) (fun g =>
  bind (times g (if srcflux then Some (spec t) else None)) (fun g =>
  bind (bcast (fun c g => cdiv c (if ciszero g then one else g)) (cells (r_n x) (r_corr x)) (match g with None => [one] | Some g => g end)) (fun d =>
  Ok (Some t, Some (same_preamble_as x d (r_fl x))))))))).
End Host.

(* phs2src.py:49, no source: the factor np.exp(-1j*np.pi*o), o the offset get_phs_offset gives for a channel *)
Definition offset_factor (o : R) : R * R := (cos (PI * o), - sin (PI * o))%R.
