(* get_params / set_params of the objects of aipy/fit.py and aipy/pol.py. *)
From Verif Require Import Base.
From Coq Require Import Ascii String.
Open Scope nat_scope.

(* Python dictionaries with string keys *)
Definition dict (A : Type) := list (string * A).
Fixpoint lookup {A} (k : string) (d : dict A) : option A :=
  match d with [] => None | (k', v) :: r => if String.eqb k k' then Some v else lookup k r end.
Fixpoint dset {A} (k : string) (v : A) (d : dict A) : dict A :=
  match d with
  | [] => [(k, v)]
  | (k', v') :: r => if String.eqb k k' then (k', v) :: r else (k', v') :: dset k v r
  end.
Definition star (k : string) : bool := match k with String c _ => Ascii.eqb c "*"%char | _ => false end.

(* the closing loop of every get_params: aipy/fit.py:108-113 *)
Fixpoint choose {A} (aprms : dict A) (prms : dict A) (prm_list : list string) : dict A :=
  match prm_list with
  | [] => prms
  | p :: r => if star p then aprms
              else choose aprms (match lookup p aprms with Some v => dset p v prms | None => prms end) r
  end.
Definition or_old {A} (d : dict A) (k : string) (old : A) : A := match lookup k d with Some v => v | None => old end.

Section Objects.
Context {F : Type}.           (* numbers; float() of a number is that number *)

(* ---- sources: amp.RadioFixedBody / amp.RadioSpecial ---- *)
Record src := Src { s_jys : F; s_index : F; s_ra : F; s_dec : F; s_a1 : F; s_a2 : F; s_th : F;
                    s_dra : F; s_ddec : F; s_mfreq : F }.
(* aipy/fit.py:94-113 RadioFixedBody.get_params *)
Definition fixed_all (s : src) : dict F :=
  [("jys", s_jys s); ("index", s_index s); ("ra", s_ra s); ("dec", s_dec s); ("a1", s_a1 s); ("a2", s_a2 s);
   ("th", s_th s); ("dra", s_dra s); ("ddec", s_ddec s); ("mfreq", s_mfreq s)]%string.
Definition fixed_get (s : src) (l : list string) : dict F := choose (fixed_all s) [] l.
(* aipy/fit.py:114-133 RadioFixedBody.set_params *)
Definition fixed_set (s : src) (d : dict F) : src :=
  {| s_jys := or_old d "jys" (s_jys s); s_index := or_old d "index" (s_index s);
     s_ra := or_old d "ra" (s_ra s); s_dec := or_old d "dec" (s_dec s);
     s_a1 := or_old d "a1" (s_a1 s); s_a2 := or_old d "a2" (s_a2 s); s_th := or_old d "th" (s_th s);
     s_dra := or_old d "dra" (s_dra s); s_ddec := or_old d "ddec" (s_ddec s); s_mfreq := s_mfreq s |}.
(* aipy/fit.py:145-162 RadioSpecial.get_params (no ra, dec, mfreq) *)
Definition special_all (s : src) : dict F :=
  [("jys", s_jys s); ("index", s_index s); ("a1", s_a1 s); ("a2", s_a2 s);
   ("th", s_th s); ("dra", s_dra s); ("ddec", s_ddec s)]%string.
Definition special_get (s : src) (l : list string) : dict F := choose (special_all s) [] l.
(* aipy/fit.py:163-177 *)
Definition special_set (s : src) (d : dict F) : src :=
  {| s_jys := or_old d "jys" (s_jys s); s_index := or_old d "index" (s_index s);
     s_ra := s_ra s; s_dec := s_dec s;
     s_a1 := or_old d "a1" (s_a1 s); s_a2 := or_old d "a2" (s_a2 s); s_th := or_old d "th" (s_th s);
     s_dra := or_old d "dra" (s_dra s); s_ddec := or_old d "ddec" (s_ddec s); s_mfreq := s_mfreq s |}.

(* ---- SrcCatalog: a dictionary of sources, here all RadioFixedBody ---- *)
Definition catalog := dict src.
(* aipy/fit.py:189-200 SrcCatalog.get_params; every parameter list as a list of strings *)
Definition cat_get (c : catalog) (q : dict (list string)) : dict (dict F) :=
  fold_left (fun prms kq =>
    fold_left (fun prms s => match lookup s c with Some o => dset s (fixed_get o (snd kq)) prms | None => prms end)
              (if star (fst kq) then map fst c else [fst kq]) prms) q [].
(* aipy/fit.py:201-205 SrcCatalog.set_params *)
Definition cat_set (c : catalog) (d : dict (dict F)) : catalog :=
  fold_left (fun c kd => match lookup (fst kd) c with Some o => dset (fst kd) (fixed_set o (snd kd)) c | None => c end) d c.

(* ---- beams ---- *)
(* aipy/fit.py:220-240 Beam2DGaussian; returns the changed flag *)
Record gauss := Gauss { g_x : F; g_y : F }.
Definition gauss_get (g : gauss) (l : list string) : dict F := choose [("bm_xwidth", g_x g); ("bm_ywidth", g_y g)]%string [] l.
Definition gauss_set (g : gauss) (d : dict F) : gauss * bool :=
  ({| g_x := or_old d "bm_xwidth" (g_x g); g_y := or_old d "bm_ywidth" (g_y g) |},
   match lookup "bm_xwidth" d, lookup "bm_ywidth" d with None, None => false | _, _ => true end).

(* an array or a Python list *)
Inductive seqv := Arr (l : list F) | Lst (l : list F).
(* aipy/fit.py:242-264 BeamPolynomial; the coefficients in row-major order *)
Record poly := Poly { p_rows : nat; p_cols : nat; p_data : list F }.
Definition poly_get (p : poly) (l : list string) : dict seqv := choose [("bm_poly"%string, Arr (p_data p))] [] l.
Definition poly_set (p : poly) (d : dict seqv) : res poly :=
  match lookup "bm_poly" d with
  | None => Ok p
  | Some (Lst _) => Err                                     (* a list has no shape: AttributeError *)
  | Some (Arr l) => if List.length l =? p_rows p * p_cols p then Ok {| p_rows := p_rows p; p_cols := p_cols p; p_data := l |}
                    else Err                                (* ValueError *)
  end.

(* aipy/fit.py:266-295 BeamAlm: one list of complex coefficients per polynomial term.
   The key 'alm%d' % i is represented by the number i; all terms have the same number of
   coefficients and set_data rejects another number. *)
Definition almbeam := list (list (F * F)).
Fixpoint pairs_flat (l : list (F * F)) : list F := match l with [] => [] | (a, b) :: r => a :: b :: pairs_flat r end.
Fixpoint flat_pairs (l : list F) : list (F * F) := match l with a :: b :: r => (a, b) :: flat_pairs r | _ => [] end.
Definition alm_get (b : almbeam) : list (nat * list F) := combine (seq 0 (List.length b)) (map pairs_flat b).
Fixpoint upd {A} (l : list A) (i : nat) (x : A) : list A :=
  match l, i with [], _ => [] | _ :: r, O => x :: r | y :: r, S i => y :: upd r i x end.
Definition alm_set (b : almbeam) (d : list (nat * list F)) : almbeam :=
  fold_left (fun b kv => if fst kv <? List.length b
                         then upd b (List.length b - 1 - fst kv) (flat_pairs (snd kv)) else b) d b.

(* ---- antennas; lists are objects in a heap ---- *)
Definition loc := nat.
Inductive aval := ANum (x : F) | ARef (l : loc).
(* parameters of one polarisation; p_phs and p_gain are what update() computed from *)
Record pset := PSet { p_off : loc; p_bpr : loc; p_bpi : loc; p_amp : F;
                      p_phs : list F; p_gain : list F * list F * F }.
(* fit.Antenna has the one polarisation ""; pol.Antenna one entry per polarisation *)
Record ant := AntP { a_x : F; a_y : F; a_z : F; a_pols : list (string * pset) }.
Record world := World { w_heap : list (list F); w_ants : list ant }.
Definition content (h : list (list F)) (l : loc) : list F := nth l h [].

(* parameter names: aipy/fit.py:312-317, aipy/pol.py:95-105 (get) *)
Definition name (base p : string) : string := if String.eqb p "" then base else (base ++ "_" ++ p)%string.
(* aipy/fit.py:338, aipy/pol.py:126 (set) *)
Definition bpi_set_name (p : string) : string := if String.eqb p "" then "bp_i"%string else ("bp_i" ++ p)%string.

(* aipy/fit.py:306-325 Antenna.get_params, aipy/pol.py:92-112: the 'phsoff' entry is the
   antenna's own list, the bandpass entries are copies. The beam's own dictionary is left
   out: its keys are different ones and the beam is another object. *)
Definition pset_get (h : list (list F)) (kp : string * pset) : list (list F) * dict aval :=
  let '(p, q) := kp in
  let n := List.length h in
  let off := content h (p_off q) in
  (h ++ [content h (p_bpr q); content h (p_bpi q)],
   (match rev off with o :: x :: _ => [(name "dly" p, ANum x); (name "off" p, ANum o)] | _ => [] end) ++
   [(name "phsoff" p, ARef (p_off q)); (name "bp_r" p, ARef n); (name "bp_i" p, ARef (S n));
    (name "amp" p, ANum (p_amp q))]).
Fixpoint psets_get (h : list (list F)) (l : list (string * pset)) : list (list F) * dict aval :=
  match l with
  | [] => (h, [])
  | kp :: r => let '(h1, d1) := pset_get h kp in let '(h2, d2) := psets_get h1 r in (h2, d1 ++ d2)
  end.
Definition ant_get (w : world) (i : nat) (l : list string) : res (world * dict aval) :=
  match nth_error (w_ants w) i with
  | None => Err
  | Some a => let '(h, d) := psets_get (w_heap w) (a_pols a) in
              if existsb (fun kp => List.length (content (w_heap w) (p_off (snd kp))) <? 2) (a_pols a) then Err   (* IndexError *)
              else Ok (World h (w_ants w), choose ([("x", ANum (a_x a)); ("y", ANum (a_y a)); ("z", ANum (a_z a))]%string ++ d) [] l)
  end.

(* numbers and lists read from a dictionary; the wrong kind is an exception *)
Definition get_num (d : dict aval) (k : string) (old : F) : res F :=
  match lookup k d with None => Ok old | Some (ANum x) => Ok x | Some (ARef _) => Err end.
Definition get_ref (d : dict aval) (k : string) (old : loc) : res loc :=
  match lookup k d with None => Ok old | Some (ARef l) => Ok l | Some (ANum _) => Err end.
(* l[-b] = d[k] if the key is there, in place *)
Definition poke (h : list (list F)) (l : loc) (b : nat) (d : dict aval) (k : string) : res (list (list F)) :=
  match lookup k d with
  | None => Ok h
  | Some (ARef _) => Err
  | Some (ANum x) => if b <=? List.length (content h l)
                     then Ok (upd h l (upd (content h l) (List.length (content h l) - b) x)) else Err  (* IndexError *)
  end.
Definition present (d : dict aval) (k : string) : bool := match lookup k d with Some _ => true | None => false end.

(* aipy/fit.py:334-341, aipy/pol.py:118-129 for one polarisation *)
Definition pset_set (h : list (list F)) (p : string) (q : pset) (d : dict aval) : res (list (list F) * pset * bool) :=
  bind (poke h (p_off q) 2 d (name "dly" p)) (fun h =>
  bind (poke h (p_off q) 1 d (name "off" p)) (fun h =>
  bind (get_ref d (name "phsoff" p) (p_off q)) (fun off =>
  bind (get_ref d (name "bp_r" p) (p_bpr q)) (fun bpr =>
  bind (get_ref d (bpi_set_name p) (p_bpi q)) (fun bpi =>
  bind (get_num d (name "amp" p) (p_amp q)) (fun amp =>
  Ok (h, PSet off bpr bpi amp (p_phs q) (p_gain q),
      existsb (present d) [name "dly" p; name "off" p; name "phsoff" p; name "bp_r" p; bpi_set_name p; name "amp" p]))))))).
Fixpoint psets_set (h : list (list F)) (l : list (string * pset)) (d : dict aval) : res (list (list F) * list (string * pset) * bool) :=
  match l with
  | [] => Ok (h, [], false)
  | (p, q) :: r => bind (pset_set h p q d) (fun '(h1, q1, c1) =>
                   bind (psets_set h1 r d) (fun '(h2, r2, c2) => Ok (h2, (p, q1) :: r2, c1 || c2)))
  end.
(* aipy/phs.py:203-206, aipy/amp.py:232-238, aipy/pol.py:68-77 update() *)
Definition update_pset (h : list (list F)) (kp : string * pset) : string * pset :=
  let '(p, q) := kp in
  (p, PSet (p_off q) (p_bpr q) (p_bpi q) (p_amp q) (content h (p_off q))
           (content h (p_bpr q), content h (p_bpi q), p_amp q)).
Definition update_ant (h : list (list F)) (a : ant) : ant := AntP (a_x a) (a_y a) (a_z a) (map (update_pset h) (a_pols a)).

(* aipy/fit.py:326-344 Antenna.set_params, aipy/pol.py:113-131 *)
Definition ant_set (w : world) (i : nat) (d : dict aval) : res world :=
  match nth_error (w_ants w) i with
  | None => Err
  | Some a =>
    bind (get_num d "x" (a_x a)) (fun x => bind (get_num d "y" (a_y a)) (fun y => bind (get_num d "z" (a_z a)) (fun z =>
    bind (psets_set (w_heap w) (a_pols a) d) (fun '(h, ps, c) =>
    let changed := c || existsb (present d) ["x"; "y"; "z"]%string in
    let a' := AntP x y z ps in
    Ok (World h (upd (w_ants w) i (if changed then update_ant h a' else a')))))))
  end.

(* constructor arguments of one polarisation; None: the argument is left out *)
Record newp := NewP { n_off : option loc; n_bpr : option loc; n_bpi : option loc; n_amp : F }.
Definition dflt (d : loc) (o : option loc) : loc := match o with Some l => l | None => d end.
(* aipy/phs.py:191-199, aipy/amp.py:215-231: default arguments are one object each, made
   once: list 0 is the default phsoff, 1 and 2 the default bandpasses *)
Definition new_pset (h : list (list F)) (kn : string * newp) : string * pset :=
  let '(p, n) := kn in
  update_pset h (p, PSet (dflt 0 (n_off n)) (dflt 1 (n_bpr n)) (dflt 2 (n_bpi n)) (n_amp n) [] ([], [], n_amp n)).
Definition ant_new (w : world) (x y z : F) (l : list (string * newp)) : world :=
  World (w_heap w) (w_ants w ++ [AntP x y z (map (new_pset (w_heap w)) l)]).

(* a user program: build lists, build antennas, get and set parameters *)
Inductive wop :=
| WList (l : list F)
| WNew (x y z : F) (l : list (string * newp))
| WGet (i : nat) (l : list string)
| WSet (i : nat) (d : dict aval)
| WUpdate (i : nat).
Definition wstep (w : world) (o : wop) : res world :=
  match o with
  | WList l => Ok (World (w_heap w ++ [l]) (w_ants w))
  | WNew x y z l => Ok (ant_new w x y z l)
  | WGet i l => bind (ant_get w i l) (fun '(w, _) => Ok w)
  | WSet i d => ant_set w i d
  | WUpdate i => match nth_error (w_ants w) i with
                 | Some a => Ok (World (w_heap w) (upd (w_ants w) i (update_ant (w_heap w) a)))
                 | None => Err end
  end.
Fixpoint wrun (w : world) (l : list wop) : res world :=
  match l with [] => Ok w | o :: r => bind (wstep w o) (fun w => wrun w r) end.
Definition wstart (zero one : F) : world := World [[zero; zero]; [one]; [zero]] [].
(* aipy/fit.py:369-376 AntennaArray.set_params: the antennas in order; the key str(i) is
   represented by the number i *)
Fixpoint array_set (w : world) (is_ : list nat) (prms : nat -> option (dict aval)) : res world :=
  match is_ with
  | [] => Ok w
  | i :: r => bind (match prms i with Some d => ant_set w i d | None => Ok w end) (fun w => array_set w r prms)
  end.
End Objects.
Arguments src : clear implicits. Arguments catalog : clear implicits. Arguments gauss : clear implicits.
Arguments seqv : clear implicits. Arguments poly : clear implicits. Arguments almbeam : clear implicits.
Arguments aval : clear implicits. Arguments pset : clear implicits. Arguments ant : clear implicits.
Arguments world : clear implicits. Arguments wop : clear implicits. Arguments newp : clear implicits.
