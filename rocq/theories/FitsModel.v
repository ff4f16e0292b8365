(* Images in FITS files: aipy/img.py:328-497 to_fits, from_fits, find_axis, from_fits_to_fits.
   The FITS library (astropy.io.fits) is described by what the code relies on. A header maps
   keywords to values, a value is a string or a number; numbers are an abstract type with the
   few operations used. A number that is not finite or a string with a character outside
   printable ASCII cannot be put in a header (ValueError). Read from a file a string has lost
   its trailing blanks and a number v is `reread v` (a card holds a limited number of digits).
   Writing an array makes the keywords NAXIS, NAXISn from the array. Whether the
   library then also removes BSCALE and BZERO is the parameter `drops`: where they stay, reading
   multiplies and adds them to the data and removes them. A HISTORY card holds 72 characters and
   longer text is continued on the next card. Simplifications: pixels keep their values in the
   file (no conversion of types), comments of cards are left out, Python 3. *)
From Coq Require Import Ascii String.
From Verif Require Import Base ScriptModel ImgModel.
Local Open Scope Z_scope.
Local Notation length := List.length.

Definition upper1 (c : ascii) : ascii := if (97 <=? cval c) && (cval c <=? 122) then ascii_of_N (Z.to_N (cval c - 32)) else c.
Definition lower1 (c : ascii) : ascii := if (65 <=? cval c) && (cval c <=? 90) then ascii_of_N (Z.to_N (cval c + 32)) else c.
Definition upper (s : str) : str := map upper1 s.
Definition lower (s : str) : str := map lower1 s.
Definition printable (c : ascii) : bool := (32 <=? cval c) && (cval c <=? 126).
Fixpoint cut_blanks (s : str) : str := match s with c :: r => if ceqb c " "%char then cut_blanks r else s | [] => [] end.
Definition rtrim (s : str) : str := rev (cut_blanks (rev s)).
Fixpoint streq (a b : str) : bool :=
  match a, b with [], [] => true | x :: a, y :: b => ceqb x y && streq a b | _, _ => false end.

(* a keyword: a name, or a name followed by a number *)
Inductive key := K (name : string) | KI (name : string) (i : nat).
Definition keqb (a b : key) : bool :=
  match a, b with K x, K y => String.eqb x y | KI x i, KI y j => String.eqb x y && Nat.eqb i j | _, _ => false end.

Section Fits.
Variable V : Type.
Variables (zero one : V) (of_nat : nat -> V) (add mul : V -> V -> V) (opp : V -> V) (pos finite : V -> bool) (veqb : V -> V -> bool).
Variables amax amin : list V -> V.
Variable reread : V -> V.
Variable drops : bool.

Inductive val := VS (s : str) | VN (v : V).
Definition header := list (key * val).
Fixpoint hget (h : header) (k : key) : option val :=
  match h with [] => None | (q, v) :: r => if keqb q k then Some v else hget r k end.
Fixpoint hset (h : header) (k : key) (v : val) : header :=
  match h with [] => [(k, v)] | (q, w) :: r => if keqb q k then (q, v) :: r else (q, w) :: hset r k v end.
Definition hdel (h : header) (k : key) : header := filter (fun '(q, _) => negb (keqb q k)) h.
Definition legal (v : val) : bool := match v with VS s => forallb printable s | VN x => finite x end.
Definition store (v : val) : val := match v with VS s => VS (rtrim s) | VN x => VN (reread x) end.
Fixpoint sets (h : header) (l : list (key * val)) : res header :=
  match l with [] => Ok h | (k, v) :: r => if legal v then sets (hset h k v) r else Err end.

(* the first HDU of a file *)
Record hdu := Hdu { u_cards : header; u_hist : list str; u_shape : list nat; u_pix : list V }.
Definition fs := str -> option hdu.
Definition is_naxis (k : key) : bool := match k with K n => String.eqb n "NAXIS" | KI n _ => String.eqb n "NAXIS" end.
Definition is_scale (k : key) : bool := match k with K n => String.eqb n "BSCALE" || String.eqb n "BZERO" | _ => false end.
(* pyfits.writeto; an array without dimensions cannot be written *)
Definition writeto (f : fs) (name : str) (shape : list nat) (pix : list V) (h : header) (hist : list str) (clobber : bool) : res fs :=
  match shape with
  | [] => Err
  | _ =>
    if negb clobber && match f name with Some _ => true | None => false end then Err
    else let h := filter (fun '(k, _) => negb (is_naxis k) && negb (drops && is_scale k)) h in
         let u := Hdu (map (fun '(k, v) => (k, store v)) h) (map rtrim hist) shape pix in
         Ok (fun n => if streq n name then Some u else f n)
  end.
(* the header and the data of an HDU read from a file *)
Definition scale_of (h : header) : V * V :=
  (match hget h (K "BSCALE") with Some (VN b) => b | _ => one end, match hget h (K "BZERO") with Some (VN z) => z | _ => zero end).
Definition scaled (h : header) : bool := let '(b, z) := scale_of h in negb (veqb b one && veqb z zero).
Definition open_pix (u : hdu) : list V :=
  let '(b, z) := scale_of (u_cards u) in
  if scaled (u_cards u) then map (fun x => add (mul x b) z) (u_pix u) else u_pix u.
Definition open_cards (u : hdu) : header :=
  if scaled (u_cards u) then hdel (hdel (u_cards u) (K "BSCALE")) (K "BZERO") else u_cards u.

(* the arguments of to_fits besides filename, data and clobber *)
Record args := Args {
  a_axes : list str; a_object : val; a_telescope : val; a_instrument : val; a_observer : val; a_origin : val;
  a_obs_date : val; a_cur_date : val; a_ra : V; a_dec : V; a_d_ra : V; a_d_dec : V; a_epoch : val;
  a_freq : V; a_d_freq : V; a_bscale : val; a_bzero : val; a_history : str }.
Variable today : str.
Variable v2000 : V.
(* img.py:328-333 *)
Definition defaults : args :=
  Args [lit "ra--sin"; lit "dec--sin"] (VS []) (VS []) (VS []) (VS []) (VS (lit "AIPY")) (VS today) (VS today)
       zero zero zero zero (VN v2000) zero zero (VN zero) (VN zero) [].

(* img.py:343 data.squeeze() *)
Definition squeeze (shape : list nat) : list nat := filter (fun n => negb (Nat.eqb n 1)) shape.
Definition begins (p : string) (s : str) : bool := starts (lit p) s.
(* img.py:362-382, the cards of axis i *)
Definition axis_cards (a : args) (shape : list nat) (i : nat) (ax : str) : list (key * val) :=
  let l := lower ax in
  let '(v, d) :=
    if begins "ra" l || begins "glon" l then (a_ra a, a_d_ra a)
    else if begins "dec" l || begins "glat" l then (a_dec a, a_d_dec a)
    else if begins "freq" l then (a_freq a, a_d_freq a)
    else if begins "stokes" l then (one, one) else (zero, zero) in
  [(KI "CTYPE" (i + 1), VS (upper ax));
   (KI "CRPIX" (i + 1), VN (of_nat (Nat.div2 (nth (length shape - (i + 1)) shape O + 1))));
   (KI "CRVAL" (i + 1), VN v);
   (KI "CDELT" (i + 1), VN (if (begins "ra" l || begins "glon" l) && pos d then opp d else d));
   (KI "CROTA" (i + 1), VN zero);
   (KI "NAXIS" (i + 1), VN (of_nat (nth i shape O)))].
(* enumerate *)
Fixpoint number {A} (i : nat) (l : list A) : list (nat * A) := match l with [] => [] | x :: r => (i, x) :: number (S i) r end.
(* img.py:347-391, all cards set *)
Definition all_cards (a : args) (shape : list nat) (pix : list V) : list (key * val) :=
  [(K "TRANSPOS", VN zero); (K "OBJECT", a_object a); (K "TELESCOP", a_telescope a); (K "INSTRUME", a_instrument a);
   (K "OBSERVER", a_observer a); (K "DATE-OBS", a_obs_date a); (K "BSCALE", a_bscale a); (K "BZERO", a_bzero a);
   (K "BUNIT", VS (lit "JY/BEAM ")); (K "EQUINOX", a_epoch a); (K "EPOCH", a_epoch a);
   (K "DATAMAX", VN (amax pix)); (K "DATAMIN", VN (amin pix))]
  ++ flat_map (fun '(i, ax) => axis_cards a shape i ax) (number 0 (a_axes a))
  ++ [(K "ORIGIN", a_origin a); (K "DATE", a_cur_date a)].
(* header.add_history of one line *)
Definition hist_cards (l : str) : list str :=
  if (length l <=? 72)%nat then [l] else chunk l 72.
(* img.py:383-391 and map.py:157-165, for word_wrap(line,80,ind,ind,'') of comment lines *)
Definition nl : ascii := "010"%char.
Definition line_cards (ind : Z) (line : str) : res (list str) :=
  if (length line <=? 1)%nat then Ok []
  else bind (if begins "#" line then word_lines line 80 ind ind [] else word_lines line 70 5 10 (lit "#")) (fun subs =>
       if forallb (forallb printable) subs then Ok (flat_map hist_cards subs) else Err).
Definition history_cards (ind : Z) (text : str) : res (list str) :=
  match text with [] => Ok [] | _ => bind (map_res (fun h => line_cards ind (strip h)) (split nl text)) (fun l => Ok (concat l)) end.
(* img.py:328-394; clobber is not used *)
Definition to_fits (f : fs) (name : str) (shape : list nat) (pix : list V) (clobber : bool) (a : args) : res fs :=
  let shape := squeeze shape in
  if negb (length shape =? length (a_axes a))%nat then Err
  else match pix with
       | [] => Err
       | _ => bind (sets [] (all_cards a shape pix)) (fun h => bind (history_cards 1 (a_history a)) (fun hist =>
              writeto f name shape pix h hist true))
       end.

(* ---- from_fits: img.py:396-432 ---- *)
Inductive item := Val (v : val) | Axes (l : list str).
Definition kwds := list (string * item).
Fixpoint kget (d : kwds) (k : string) : option item := match d with [] => None | (q, v) :: r => if String.eqb q k then Some v else kget r k end.
Fixpoint kset (d : kwds) (k : string) (v : item) : kwds :=
  match d with [] => [(k, v)] | (q, w) :: r => if String.eqb q k then (q, v) :: r else (q, w) :: kset r k v end.
Definition truthy (v : val) : bool := match v with VS [] => false | VS _ => true | VN x => negb (veqb x zero) end.
(* numpy transpose of an array in C order *)
Fixpoint indices (shape : list nat) : list (list nat) :=
  match shape with [] => [[]] | n :: r => flat_map (fun i => map (cons i) (indices r)) (seq 0 n) end.
Fixpoint offset (shape idx : list nat) : nat :=
  match shape, idx with n :: r, i :: q => (i * fold_right Nat.mul 1%nat r + offset r q)%nat | _, _ => O end.
Definition transpose (shape : list nat) (pix : list V) : list V :=
  map (fun idx => nth (offset shape (rev idx)) pix zero) (indices (rev shape)).
Definition hitems : list (string * string) :=
  [("OBJECT", "object"); ("TELESCOP", "telescope"); ("INSTRUME", "instrument"); ("OBSERVER", "observer");
   ("DATE-OBS", "obs_date"); ("BSCALE", "bscale"); ("BZERO", "bzero"); ("EQUINOX", "epoch"); ("ORIGIN", "origin"); ("DATE", "cur_date")]%string.
Definition axis_kwds (h : header) (i : nat) (st : kwds * list str) : res (kwds * list str) :=
  let '(d, axes) := st in
  match hget h (KI "CTYPE" (i + 1)) with
  | None => Ok (d, axes)
  | Some (VN _) => Err
  | Some (VS s) =>
    let ax := lower s in let axes := axes ++ [ax] in
    match hget h (KI "CRVAL" (i + 1)), hget h (KI "CDELT" (i + 1)) with
    | Some v, Some dl =>
      let two a b := kset (kset d a (Val v)) b (Val dl) in
      Ok (if begins "ra" ax then two "ra"%string "d_ra"%string
          else if begins "dec" ax then two "dec"%string "d_dec"%string
          else if begins "freq" ax then two "freq"%string "d_freq"%string else d, axes)
    | _, _ => Ok (d, axes)
    end
  end.
Fixpoint axes_kwds (h : header) (l : list nat) (st : kwds * list str) : res (kwds * list str) :=
  match l with [] => Ok st | i :: r => bind (axis_kwds h i st) (axes_kwds h r) end.
Definition from_fits (f : fs) (name : str) : res (list nat * list V * kwds) :=
  match f name with
  | None => Err
  | Some u =>
    let h := open_cards u in
    let t := match hget h (K "TRANSPOS") with Some v => truthy v | None => false end in
    let data := if t then (rev (u_shape u), transpose (u_shape u) (open_pix u)) else (u_shape u, open_pix u) in
    let d := fold_left (fun d '(fn, n) => match hget h (K fn) with Some v => kset d n (Val v) | None => d end) hitems [] in
    bind (axes_kwds h (seq 0 (length (u_shape u))) (d, [])) (fun '(d, axes) => Ok (data, kset d "axes" (Axes axes)))
  end.
(* to_fits called with **kwds: a name that is no argument is a TypeError *)
Definition set_arg (a : args) (k : string) (v : item) : res args :=
  let '(Args axes ob te ins obs ori od cd ra dec dra ddec ep fr dfr bs bz hi) := a in
  match v with
  | Axes l => if String.eqb k "axes" then Ok (Args l ob te ins obs ori od cd ra dec dra ddec ep fr dfr bs bz hi) else Err
  | Val w =>
    if String.eqb k "object" then Ok (Args axes w te ins obs ori od cd ra dec dra ddec ep fr dfr bs bz hi)
    else if String.eqb k "telescope" then Ok (Args axes ob w ins obs ori od cd ra dec dra ddec ep fr dfr bs bz hi)
    else if String.eqb k "instrument" then Ok (Args axes ob te w obs ori od cd ra dec dra ddec ep fr dfr bs bz hi)
    else if String.eqb k "observer" then Ok (Args axes ob te ins w ori od cd ra dec dra ddec ep fr dfr bs bz hi)
    else if String.eqb k "origin" then Ok (Args axes ob te ins obs w od cd ra dec dra ddec ep fr dfr bs bz hi)
    else if String.eqb k "obs_date" then Ok (Args axes ob te ins obs ori w cd ra dec dra ddec ep fr dfr bs bz hi)
    else if String.eqb k "cur_date" then Ok (Args axes ob te ins obs ori od w ra dec dra ddec ep fr dfr bs bz hi)
    else if String.eqb k "epoch" then Ok (Args axes ob te ins obs ori od cd ra dec dra ddec w fr dfr bs bz hi)
    else if String.eqb k "bscale" then Ok (Args axes ob te ins obs ori od cd ra dec dra ddec ep fr dfr w bz hi)
    else if String.eqb k "bzero" then Ok (Args axes ob te ins obs ori od cd ra dec dra ddec ep fr dfr bs w hi)
    else match w with
    | VN x =>
      if String.eqb k "ra" then Ok (Args axes ob te ins obs ori od cd x dec dra ddec ep fr dfr bs bz hi)
      else if String.eqb k "dec" then Ok (Args axes ob te ins obs ori od cd ra x dra ddec ep fr dfr bs bz hi)
      else if String.eqb k "d_ra" then Ok (Args axes ob te ins obs ori od cd ra dec x ddec ep fr dfr bs bz hi)
      else if String.eqb k "d_dec" then Ok (Args axes ob te ins obs ori od cd ra dec dra x ep fr dfr bs bz hi)
      else if String.eqb k "freq" then Ok (Args axes ob te ins obs ori od cd ra dec dra ddec ep x dfr bs bz hi)
      else if String.eqb k "d_freq" then Ok (Args axes ob te ins obs ori od cd ra dec dra ddec ep fr x bs bz hi)
      else Err
    | VS _ => Err
    end
  end.
Fixpoint call_args (a : args) (d : kwds) : res args := match d with [] => Ok a | (k, v) :: r => bind (set_arg a k v) (fun a => call_args a r) end.

(* ---- img.py:434-439 find_axis: items of the header in order; the value's sixth character ---- *)
Fixpoint find_axis (h : header) (name : str) : res (option Z) :=
  match h with
  | [] => Ok None
  | (KI n _, VS s) :: r =>
    if String.eqb n "CTYPE" && starts name (lower s)
    then match nth_error s 5 with Some c => bind (py_int [c]) (fun z => Ok (Some z)) | None => Err end
    else find_axis r name
  | _ :: r => find_axis r name
  end.
(* img.py:441-497 from_fits_to_fits: the header is edited in memory, then kwds.iteritems()
   raises AttributeError before anything is written *)
Definition from_fits_to_fits (f : fs) (infile outfile : str) (shape : list nat) (pix : list V) (d : kwds) : res fs :=
  match f infile with None => Err | Some _ => Err end.
End Fits.
