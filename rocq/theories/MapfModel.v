(* Healpix maps and averaged maps in files: aipy/healpix.py:293-326, aipy/map.py:70-91 and 123-166.
   A file is one table: the keywords of its header that matter, its columns in order and the
   history in the primary header. The library (pyfits) is described by what the code relies on:
   columns shorter than the longest are filled up with zeros, field(n) of a missing column is an
   IndexError, writing over a file without clobber raises. `old` says whether the library still
   has new_table; setup.py asks for astropy>=3.0 with Python 3, where it is gone (AttributeError).
   Pixels are exact reals; `cast` is what the column format does to a value. Simplifications: the
   table is hdu 1; an exception leaves the object as it was. *)
From Coq Require Import Reals Ascii String.
From Verif Require Import Base ScriptModel HpxModel FitsModel.
Local Open Scope Z_scope.
Local Notation length := List.length.

Inductive colname := Signal | Weights | SpIndex (n : nat).
Record table := Table { t_ordering : option str; t_nside : Z; t_lastpix : Z; t_cols : list (colname * list R); t_history : list str }.
Definition tables := str -> option table.

(* healpix.py:303-306: the comparison scheme == 'NESTED' changes nothing *)
Definition ordering (s : scheme) : str := match s with RING => lit "RING" | NEST => lit "NEST" end.
(* new_table *)
Definition fill (n : nat) (l : list R) : list R := l ++ repeat 0%R (n - length l).
Definition new_table (cast : R -> R) (cols : list (colname * list R)) : list (colname * list R) :=
  let n := fold_right (fun c m => Nat.max (length (snd c)) m) O cols in
  map (fun '(k, l) => (k, fill n (map cast l))) cols.
(* HDUList.writeto *)
Definition write_table (f : tables) (name : str) (clobber : bool) (t : table) : res tables :=
  if negb clobber && match f name with Some _ => true | None => false end then Err
  else Ok (fun n => if streq n name then Some t else f n).
(* healpix.py:301-312 _set_fits_header *)
Definition table_of (h : hpm) (cols : list (colname * list R)) (hist : list str) : table :=
  Table (Some (ordering (h_scheme h))) (h_nside h) (npix (h_nside h) - 1) cols hist.

Section Lib.
Variable old : bool.
Variable cast : R -> R.
(* healpix.py:314-326 to_fits *)
Definition hpm_to_fits (f : tables) (name : str) (clobber : bool) (h : hpm) : res tables :=
  if old then write_table f name clobber (table_of h (new_table cast [(Signal, h_map h)]) []) else Err.
(* map.py:145-166 to_fits *)
Definition ind_cols (inds : list hpm) : list (colname * list R) := map (fun '(n, i) => (SpIndex n, h_map i)) (number 0 inds).
Definition map_to_fits (f : tables) (name : str) (clobber : bool) (history : str) (k : skymap) : res tables :=
  if old then
    bind (history_cards 0 history) (fun hist =>
    write_table f name clobber (table_of (k_map k) (new_table cast ((Signal, h_map (k_map k)) :: (Weights, h_map (k_wgt k)) :: ind_cols (k_ind k))) (map rtrim hist)))
  else Err.
End Lib.

(* healpix.py:293-300 from_fits: a column that is there *)
Definition scheme_of (o : str) : option scheme :=
  if streq (firstn 4 o) (lit "RING") then Some RING else if streq (firstn 4 o) (lit "NEST") then Some NEST else None.
Definition from_col (t : table) (data : list R) (h : hpm) : res hpm :=
  match t_ordering t with
  | None => Err
  | Some o => match scheme_of o with Some s => set_map h data s | None => Err end
  end.
Definition hpm_from_fits (f : tables) (name : str) (colnum : nat) (h : hpm) : res hpm :=
  match f name with
  | None => Err
  | Some t => match nth_error (t_cols t) colnum with None => Err | Some c => from_col t (snd c) h end
  end.
(* map.py:123-144 from_fits: the map, and the side and scheme later index maps are made with *)
Definition map_from_fits (f : tables) (name : str) (k : skymap) : res (skymap * (Z * scheme)) :=
  match f name with
  | None => Err
  | Some t =>
    match t_cols t with
    | [] => Err
    | c0 :: cols =>
      bind (from_col t (snd c0) (k_map k)) (fun m =>
      let fresh := new_hpm (h_nside m) (h_scheme m) false in
      bind (match cols with
            | [] => set_map fresh (map (fun _ => 1%R) (h_map fresh)) RING
            | c1 :: _ => from_col t (snd c1) (k_wgt k)
            end) (fun w =>
      bind (mapM (fun c => from_col t (snd c) fresh) (skipn 1 cols)) (fun inds =>
      Ok (Sky m w (k_ind k ++ inds), (h_nside m, h_scheme m)))))
    end
  end.
(* map.py:71-91 Map(nside, scheme, interp=interp, fromfits=..., nindices=...) *)
Definition make_map (f : tables) (nside : Z) (s : scheme) (interp : bool) (fromfits : option str) (nindices : option nat) : res skymap :=
  if pow2 nside then
    let k := Sky (new_hpm nside s interp) (new_hpm nside s interp) [] in
    match fromfits with
    | None => Ok (match nindices with None => k | Some n => set_nindices k nside s interp n end)
    | Some name =>
      bind (map_from_fits f name k) (fun '(k, (n', s')) =>
      Ok (match nindices with None => k | Some n => set_nindices k n' s' false n end))
    end
  else Err.
(* map.py:120-122 __getattr__: a method Map does not have is that of .map *)
Definition map_change_scheme {Dir} (ring2nest nest2ring : Z -> Z -> Z) (pixel : Z -> scheme -> Dir -> Z) (k : skymap) (s : scheme) : res skymap :=
  bind (change_scheme Dir ring2nest nest2ring pixel (k_map k) s) (fun m => Ok (Sky m (k_wgt k) (k_ind k))).
