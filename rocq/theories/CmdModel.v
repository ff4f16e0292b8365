(* The scripts that rewrite a UV data set record by record through UV.pipe: scripts/uv_addsub.py,
   pull_pol.py, pull_ants.py, xtalk3.py (-i), xrfi.py (-m val), mdlvis.py, apply_cal.py and
   combine_freqs.py, over the stream model of UvModel.v and PipeModel.v. Visibilities are stored as
   32-bit floats. Header items, the history line and the test whether the output exists are not
   modelled, nor the parsing of options. *)
From Coq Require Import String.
From Verif Require Import Base UvModel PipeModel BaselineModel.
Open Scope Z_scope.
Local Notation length := List.length.

(* how a script ends: it runs to the end, or an exception of the per-record function ends it, with
   the output as far as it was written, or the library fails *)
Inductive ended := Finished (w : writer) | Raised (w : writer) | Broken.

(* miriad.py:16-32 str2pol; pol2str is its inverse *)
Definition str2pol : list (string * Z) :=
  [("I", 1); ("Q", 2); ("U", 3); ("V", 4); ("rr", -1); ("ll", -2); ("rl", -3); ("lr", -4);
   ("xx", -5); ("yy", -6); ("xy", -7); ("yx", -8)]%string%Z.
Fixpoint pol2str (l : list (string * Z)) (k : Z) : res string :=
  match l with [] => Err | (q, c) :: r => if Z.eqb c k then Ok q else pol2str r k end.

(* uv['pol']: miriad_wrap.cpp:227-308; a single integer (several give an array, which is no key) *)
Definition uv_pol (r : reader) : res Z :=
  match uvgetvr r "pol" with
  | Some [a; b; c; d] => Ok (rd4 [a; b; c; d])
  | _ => Err
  end.

(* a spectrum: one 8-byte cell (two floats) per channel, and per channel whether it is good.
   Python's flags are the negations (miriad.py:221-232, 233-245). *)
Definition cells (n : Z) (c : list Z) : list (list Z) :=
  map (fun k => firstn 8 (skipn (8 * k) c)) (seq 0 (Z.to_nat n)).
Definition zero8 : list Z := [0; 0; 0; 0; 0; 0; 0; 0].

(* numpy's rule for combining two one-dimensional arrays *)
Definition bcast {A B C} (f : A -> B -> C) (l : list A) (m : list B) : res (list C) :=
  if Nat.eqb (length l) (length m) then Ok (map (fun p => f (fst p) (snd p)) (combine l m))
  else match l, m with
  | [a], _ => Ok (map (f a) m)
  | _, [b] => Ok (map (fun a => f a b) l)
  | _, _ => Err
  end.

(* write(p, d, f): the preamble as it is, the data and the flags *)
Definition same_preamble_as (x : urec) (d : list (list Z)) (good : list bool) : urec :=
  Rec (r_u x) (r_v x) (r_w x) (r_t x) (r_bl x) (zlen d) (r_tscale x) (concat d) good.
(* np.where(f, 0, d) *)
Definition where0 (good : list bool) (d : list (list Z)) : res (list (list Z)) :=
  bcast (fun g c => if g : bool then c else zero8) good d.

Section Host.
Variable feq8 feq4 : list Z -> list Z -> bool.
Variable add1000 addf1000 : list Z -> list Z.
Variable junk : list Z.
(* arithmetic on complex numbers, cell by cell; whether a cell is zero; the integer in the
   baseline's float *)
Variable cadd csub : list Z -> list Z -> list Z.
Variable ciszero : list Z -> bool.
Variable fl2int : list Z -> Z.

(* ---------- pipe with a function that has a state and may raise ---------- *)
Section Run.
Context {St : Type}.
Variable mf : St -> reader -> urec -> res (St * option urec).

(* miriad.py:269-286 pipe, as PipeModel.pipe_loop. The function gets the record as read: the record
   has as many channels as the arrays (nsize). *)
Fixpoint pipe_run (fuel : nat) (nsize : Z) (tr : list string) (s : St) (r : reader) (w : writer) : ended :=
  match fuel with
  | O => Broken
  | S fuel =>
    match uvread nsize r with
    | (_, RdErr) => Broken
    | (_, RdEof) => Finished w
    | (r', RdRec x) =>
      match mf s r' x with
      | Err => Raised w
      | Ok (s', y) =>
        match bind (copyvr tr r' w) (fun w2 =>
              match y with
              | Some y => uvwrite feq8 feq4 add1000 addf1000 junk TReal w2 y
              | None => Ok w2 end) with
        | Err => Broken
        | Ok w3 => pipe_run fuel nsize tr s' r' w3
        end
      end
    end
  end.
(* init_from_uv (with overrides) and pipe; before: an exception between the two *)
Definition script (before : res unit) (nsize : Z) (r : reader) (ks : list string) (ov : list (string * list Z))
    (f0 : file) (s0 : St) : ended :=
  match init_from_uv r ks ov [] (uv_new TReal f0) [] with
  | Err => Broken
  | Ok (w, tr) => match before with Err => Raised w | Ok _ => pipe_run (scan_fuel r) nsize tr s0 r w end
  end.
End Run.

(* ---------- uv_addsub.py:23-28 mfunc ---------- *)
(* the state is the second data set; n2: its number of channels; read() raises IOError when there is
   no record left (miriad.py:221-222) *)
Definition addsub (sub : bool) (n2 : Z) (r2 : reader) (r : reader) (x : urec) : res (reader * option urec) :=
  match uvread n2 r2 with
  | (r2', RdRec x2) =>
    bind (bcast andb (r_fl x) (r_fl x2)) (fun good =>
    bind (bcast (if sub then csub else cadd) (cells (r_n x) (r_corr x)) (cells (r_n x2) (r_corr x2))) (fun d =>
    bind (where0 good d) (fun d => Ok (r2', Some (same_preamble_as x d good)))))
  | _ => Err
  end.

(* ---------- pull_pol.py:28-31 mfunc ---------- *)
Definition pull_pol (pols : list string) (_ : unit) (r : reader) (x : urec) : res (unit * option urec) :=
  bind (uv_pol r) (fun k => bind (pol2str str2pol k) (fun p =>
  Ok (tt, if existsb (String.eqb p) pols then Some x else None))).

(* ---------- pull_ants.py:38 ---------- *)
(* opts has no refant: AttributeError, for every data set, after init_from_uv *)
Definition pull_ants (nsize : Z) (r : reader) (ks : list string) (f0 : file) : ended :=
  script (fun (_ : unit) _ _ => Err) Err nsize r ks [] f0 tt.

(* ---------- xtalk3.py:100-104 mfunc ---------- *)
(* the crosstalk model: per code of baseline and polarisation a spectrum; a missing key leaves
   the record alone *)
Fixpoint xlookup (xt : list (Z * list (list Z))) (k : Z) : option (list (list Z)) :=
  match xt with [] => None | (c, d) :: r => if Z.eqb c k then Some d else xlookup r k end.
(* xtalk3.py:85-97: the entries of the file, one for each pair of antennas and polarisation *)
Definition xfile (es : list (Z * Z * Z * list (list Z))) : list (Z * list (list Z)) :=
  map (fun e => let '(a, b, p, m) := e in (ijp2blp a b p, m)) es.
Definition ant_i (x : urec) : Z := geti (fl2int (r_bl x)).
Definition ant_j (x : urec) : Z := getj (fl2int (r_bl x)).
Definition xtalk (xt : list (Z * list (list Z))) (_ : unit) (r : reader) (x : urec) : res (unit * option urec) :=
  bind (uv_pol r) (fun k =>
  match xlookup xt (ijp2blp (ant_i x) (ant_j x) k) with
  | None => Ok (tt, Some x)
  | Some m => bind (bcast csub (cells (r_n x) (r_corr x)) m) (fun d => Ok (tt, Some (same_preamble_as x d (r_fl x))))
  end).

(* ---------- xrfi.py ---------- *)
(* the dictionary mask[pol][bl][t], with Python's equality on times; a later entry replaces an
   earlier one *)
Definition mkey := (Z * Z * list Z)%type.
Definition mkey_eqb (a b : mkey) : bool :=
  Z.eqb (fst (fst a)) (fst (fst b)) && Z.eqb (snd (fst a)) (snd (fst b)) && feq8 (snd a) (snd b).
Fixpoint mget (m : list (mkey * list bool)) (k : mkey) : res (list bool) :=
  match m with [] => Err | (c, f) :: r => if mkey_eqb c k then Ok f else mget r k end.
Definition key_of (r : reader) (x : urec) : res mkey :=
  bind (uv_pol r) (fun k => Ok (k, ij2bl (ant_i x) (ant_j x), r_t x)).
(* xrfi.py:70-91, the loop over the records, newest entry first; here true is flagged. f[chans] = 1:
   chans lists channels; one that is out of range raises IndexError. *)
Definition first_flags (reflag : bool) (chans : list Z) (x : urec) : res (list bool) :=
  let f0 := if reflag then map (fun _ => false) (r_fl x) else map negb (r_fl x) in
  let f1 := map (fun p => ciszero (fst p) || snd p) (combine (cells (r_n x) (r_corr x)) f0) in
  if forallb (fun c => (- r_n x <=? c) && (c <? r_n x)) chans
  then Ok (map (fun p => snd p || existsb (fun c => (c =? fst p) || (c + r_n x =? fst p)) chans)
             (combine (map Z.of_nat (seq 0 (length f1))) f1))
  else Err.
Fixpoint gather (reflag : bool) (chans : list Z) (rs : list (reader * rdres)) (m : list (mkey * list bool))
    : res (list (mkey * list bool)) :=
  match rs with
  | (r, RdRec x) :: rest =>
    bind (key_of r x) (fun k => bind (first_flags reflag chans x) (fun f => gather reflag chans rest ((k, f) :: m)))
  | _ => Ok m
  end.
(* xrfi.py:97-119, -m val: every entry is or-ed with further flags (outliers, channels and
   integrations with many flags); how they are found (C47) is the parameter extra *)
Definition more_flags (extra : mkey -> list bool) (m : list (mkey * list bool)) : list (mkey * list bool) :=
  map (fun e => (fst e, map (fun p => fst p || snd p) (combine (snd e) (extra (fst e))))) m.
(* xrfi.py:133-136 rfi_mfunc *)
Definition rfi_apply (m : list (mkey * list bool)) (_ : unit) (r : reader) (x : urec) : res (unit * option urec) :=
  bind (key_of r x) (fun k => bind (mget m k) (fun f =>
  bind (where0 (map negb f) (cells (r_n x) (r_corr x))) (fun d => Ok (tt, Some (same_preamble_as x d (map negb f)))))).

(* ---------- mdlvis.py:102-146 mdl ---------- *)
(* sd: aa.sim(i, j) for the polarisation and time of the record (C52); no noise (noiselev 0); no
   selection of antennas. flagopt: -f; MOther: -m with any other word. *)
Inductive mdlmode := MSim | MSub | MAdd | MOther.
Definition mdl (mode : mdlmode) (flagopt : bool) (sd : string -> Z -> Z -> list Z -> list (list Z))
    (_ : unit) (r : reader) (x : urec) : res (unit * option urec) :=
  bind (uv_pol r) (fun k => bind (pol2str str2pol k) (fun p =>
  if ant_i x =? ant_j x then Ok (tt, Some x) else
  let s := sd p (ant_i x) (ant_j x) (r_t x) in
  let d0 := cells (r_n x) (r_corr x) in
  bind (match mode with
        | MSim => Ok (s, if flagopt then r_fl x else map (fun _ => true) (r_fl x))
        | MSub => bind (bcast csub d0 s) (fun d => Ok (d, r_fl x))
        | MAdd => bind (bcast cadd d0 s) (fun d => Ok (d, r_fl x))
        | MOther => Err end) (fun dg =>
  bind (where0 (snd dg) (fst dg)) (fun d => Ok (tt, Some (same_preamble_as x d (snd dg))))))).

(* ---------- apply_cal.py:22-28 mfunc ---------- *)
(* gain, phase: the division by aa.passband(i,j) and aa.phs2src(.,'z',i,j) with the record's
   polarisation active, on a spectrum; the array is not moved in time *)
Definition apply_cal (nogain nophs : bool) (gain phase : string -> Z -> Z -> list (list Z) -> res (list (list Z)))
    (_ : unit) (r : reader) (x : urec) : res (unit * option urec) :=
  bind (uv_pol r) (fun k => bind (pol2str str2pol k) (fun p =>
  bind (if nogain then Ok (cells (r_n x) (r_corr x)) else gain p (ant_i x) (ant_j x) (cells (r_n x) (r_corr x))) (fun d =>
  bind (if nophs then Ok d else phase p (ant_i x) (ant_j x) d) (fun d =>
  Ok (tt, Some (same_preamble_as x d (r_fl x))))))).

(* ---------- combine_freqs.py:33-75 ---------- *)
(* nchan/opts.nchan is a float (from __future__ import division), so d.shape = (opts.nchan,
   nchan/opts.nchan) raises TypeError whenever nchan != opts.nchan; otherwise the data set is copied.
   ov: the overrides given to init_from_uv in the first case. *)
Definition combine_freqs (want nsize : Z) (r : reader) (ks : list string) (ov : list (string * list Z)) (f0 : file) : ended :=
  if want =? nsize then script (fun (_ : unit) _ x => Ok (tt, Some x)) (Ok tt) nsize r ks [] f0 tt
  else script (fun (_ : unit) _ _ => Err) (Ok tt) nsize r ks ov f0 tt.
End Host.
