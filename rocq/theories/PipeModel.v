(* Copying a UV data set: UV.init_from_uv and UV.pipe (aipy/miriad.py), over the
   stream model of UvModel.v. Header items (init_from_uv's first loop, pipe's history
   line) are not modelled here. *)
From Verif Require Import Base.
From Coq Require Import String.
From Verif Require Import UvModel.
Open Scope Z_scope.

Definition MAXVAR := 32768.           (* miriad_wrap.cpp:7 *)

(* uv[k] followed by _wrvr(k, type, .): miriad_wrap.cpp:227-308 rdvr, 321-372 wrvr,
   in file bytes. A string gains a terminating NUL (PyString_Size+1). An array of
   integers is read as NPY_INT and refused on writing, where NPY_LONG is asked for
   (these differ when long has 64 bits). Floats go through Python floats and
   come back as they were. *)
Definition reput (t : ty) (b : list Z) : res (list Z) :=
  if zlen b >? MAXVAR then Err else
  match t with
  | TByte => Ok (b ++ [0])
  | TInt | TInt2 => if zlen b =? ext t then Ok b else Err
  | _ => Ok b
  end.

Definition mem (n : string) (l : list string) : bool := existsb (String.eqb n) l.

(* a Python dict of values, already in file bytes *)
Fixpoint getov (ov : list (string * list Z)) (n : string) : option (list Z) :=
  match ov with
  | [] => None
  | (m, b) :: r => if String.eqb m n then Some b else getov r n
  end.

(* miriad.py:256-268 init_from_uv, the loop over variables. ks: uv.vars(), a dict's keys.
   The result carries the names given to trackvr(k,'c') (uvio.c:1775-1818 uvtrack_c sets
   the variable's UVF_COPY flag). *)
Fixpoint init_from_uv (r : reader) (ks : list string) (ov : list (string * list Z)) (ex : list string)
    (w : writer) (tr : list string) : res (writer * list string) :=
  match ks with
  | [] => Ok (w, tr)
  | k :: ks' =>
    if mem k ex then init_from_uv r ks' ov ex w tr
    else if String.eqb k "corr" then init_from_uv r ks' ov ex w tr
    else match rfind r k with
    | None => Err
    | Some v =>
      match getov ov k with
      | Some b => bind (uvputvr w (v_ty v) k b) (fun w' => init_from_uv r ks' ov ex w' tr)
      | None =>
        match v_buf v with
        | None => Err                   (* uvgetvr: currently has no value *)
        | Some b => bind (reput (v_ty v) b) (fun b' =>
                    bind (uvputvr w (v_ty v) k b') (fun w' => init_from_uv r ks' ov ex w' (tr ++ [k])))
        end
      end
    end
  end.

(* uvio.c:1340-1368 uvcopyvr_c. The test of uv->flags & UVF_COPY only says whether any
   tracked variable was updated since the mark (1861-1950: uv_scan ors in the flags of the
   variables it meets), so it is left out. *)
Fixpoint copy_vars (tr : list string) (mark : Z) (vs : list rvar) (w : writer) : res writer :=
  match vs with
  | [] => Ok w
  | v :: vs' =>
    if (mark <=? v_call v) && mem (v_name v) tr
    then bind (uvputvr w (v_ty v) (v_name v) (obuf (v_buf v))) (copy_vars tr mark vs')
    else copy_vars tr mark vs' w
  end.
Definition copyvr (tr : list string) (r : reader) (w : writer) : res writer :=
  copy_vars tr (rd_mark r) (rd_vars r) w.

(* a variable assigned on the output by the per-record function: name, type, bytes *)
Definition put := (string * ty * list Z)%type.

Section Pipe.
Variable feq8 feq4 : list Z -> list Z -> bool.
Variable add1000 addf1000 : list Z -> list Z.
Variable junk : list Z.
Variable corrty : ty.                                 (* of the output *)
(* what mfunc does to the k-th record it is given: assignments to the output, and
   the record returned, or None. The source is fixed, so a function with state is one of k. *)
Variable mf : nat -> reader -> urec -> list put * option urec.
(* memory past the channels read into the arrays handed out by raw_read *)
Variable jc : nat -> list Z.
Variable jf : nat -> list bool.

(* miriad_wrap.cpp:97-136: the arrays have the length asked for, however many channels were read *)
Definition widen (styp : ty) (nsize : Z) (k : nat) (x : urec) : urec :=
  Rec (r_u x) (r_v x) (r_w x) (r_t x) (r_bl x) nsize (r_tscale x)
      (r_corr x ++ firstn (Z.to_nat (2 * ext styp * (nsize - r_n x))) (jc k))
      (r_fl x ++ firstn (Z.to_nat (nsize - r_n x)) (jf k)).

(* miriad.py:269-286 pipe: read (217-232), mfunc, copyvr, write (which ignores None, 237).
   styp: the storage type of the source. *)
Fixpoint pipe_loop (fuel : nat) (styp : ty) (nsize : Z) (tr : list string) (k : nat)
    (r : reader) (w : writer) : res writer :=
  match fuel with
  | O => Err
  | S fuel =>
    match uvread nsize r with
    | (_, RdErr) => Err
    | (_, RdEof) => Ok w
    | (r', RdRec x) =>
      let m := mf k r' (widen styp nsize k x) in
      bind (urun feq8 feq4 add1000 addf1000 junk corrty w (map (fun p => UPut (fst (fst p)) (snd (fst p)) (snd p)) (fst m)))
        (fun w1 => bind (copyvr tr r' w1) (fun w2 =>
        bind (match snd m with
              | Some y => uvwrite feq8 feq4 add1000 addf1000 junk corrty w2 y
              | None => Ok w2 end)
        (pipe_loop fuel styp nsize tr (S k) r')))
    end
  end.

(* init_from_uv into a new data set, then pipe *)
Definition clone (styp : ty) (nsize : Z) (r : reader) (ks : list string) (ov : list (string * list Z))
    (ex : list string) (f0 : file) : res writer :=
  bind (init_from_uv r ks ov ex (uv_new corrty f0) []) (fun p =>
  pipe_loop (scan_fuel r) styp nsize (snd p) 0 r (fst p)).
End Pipe.

(* What has happened to a data set opened for reading before it is copied: UV.__init__ reads
   one record and rewinds (miriad.py:80); then, any number of times, some records are read
   and the data set is rewound. *)
Definition sessions (nsize : Z) (ks : list nat) : list rop :=
  List.concat (map (fun k => repeat (RRead nsize) k ++ [RRewind]) (1%nat :: ks)).

(* ---------- decimation (miriad_wrap.cpp:94-136) ---------- *)
(* the wrapper calls uvread_c again until the integration is wanted; cur: the time of the
   integration, cnt: its number. feq8 compares times. *)
Fixpoint dec_read (feq8 : list Z -> list Z -> bool) (fuel : nat) (nsize dec ph : Z)
    (r : reader) (cnt : Z) (cur : list Z) : reader * Z * list Z * rdres :=
  match fuel with
  | O => (r, cnt, cur, RdErr)
  | S fuel =>
    match uvread nsize r with
    | (r', RdRec x) =>
      let new := negb (feq8 (r_t x) cur) in
      let cnt' := if new then cnt + 1 else cnt in
      let cur' := if new then r_t x else cur in
      if Z.rem (cnt' - ph) dec =? 0 then (r', cnt', cur', RdRec x)
      else dec_read feq8 fuel nsize dec ph r' cnt' cur'
    | (r', y) => (r', cnt, cur, y)
    end
  end.

(* pipe with the default function from a decimated source *)
Fixpoint pipe_dec (feq8 feq4 : list Z -> list Z -> bool) (add1000 addf1000 : list Z -> list Z) (junk : list Z)
    (corrty : ty) (fuel : nat) (nsize dec ph : Z) (tr : list string) (r : reader) (cnt : Z) (cur : list Z)
    (w : writer) : res writer :=
  match fuel with
  | O => Err
  | S fuel =>
    match dec_read feq8 (scan_fuel r) nsize dec ph r cnt cur with
    | (_, _, _, RdErr) => Err
    | (_, _, _, RdEof) => Ok w
    | (r', cnt', cur', RdRec x) =>
      bind (copyvr tr r' w) (fun w2 => bind (uvwrite feq8 feq4 add1000 addf1000 junk corrty w2 x)
        (pipe_dec feq8 feq4 add1000 addf1000 junk corrty fuel nsize dec ph tr r' cnt' cur'))
    end
  end.
