(* Header items as Python values: UV.__getitem__/__setitem__ of the names in
   itemtable, aipy/miriad.py:34-55, 97-196, over aipy/_miriad/miriad_wrap.cpp:396-624, the
   codecs of PackModel, the item I/O of HioModel and the data set of TreeModel.
   Not modelled: names that are also UV variables (the vartable is searched first); Python
   subclasses of int, float and complex; item types of more than one letter (none in itemtable). *)
From Verif Require Import Base PackModel HioModel TreeModel.
From Coq Require Import String Ascii.
Open Scope Z_scope.
Local Notation length := List.length.

(* the letters of itemtable: 'a', 'i', 'd', 'c', '?' *)
Inductive ity := IA | II | ID | IC | IQ.

(* miriad.py:34-55 *)
Definition itemtable : list (string * ity) :=
  [("obstype", IA); ("history", IA); ("vartable", IA); ("ngains", II); ("nfeeds", II); ("ntau", II);
   ("nsols", II); ("interval", ID); ("leakage", IC); ("freq0", ID); ("freqs", IQ); ("bandpass", IC);
   ("nspect0", II); ("nchan0", II); ("stopt", ID); ("duration", ID)]%string.

Fixpoint assoc {A} (l : list (string * A)) (n : string) : option A :=
  match l with [] => None | (m, x) :: r => if String.eqb m n then Some x else assoc r n end.
Definition type_of (n : string) : option ity := assoc itemtable n.

(* the characters of a name, as TreeModel has them *)
Definition codes (n : string) : name := map (fun c => Z.of_N (N_of_ascii c)) (list_ascii_of_string n).

(* Python numbers and strings. A float is its 64-bit pattern, a complex two of them, a
   string its code points. *)
Inductive elem := EInt (z : Z) | EDbl (x : Z) | ECplx (re im : Z) | EStr (s : list Z).
Inductive pyval := Scalar (e : elem) | Seq (l : list elem) | Text (s : list Z).

(* code point to UTF-8 (surrogates, which Python refuses, are not treated apart) *)
Definition utf8_char (c : Z) : list Z :=
  if c <? 128 then [c] else
  if c <? 2048 then [192 + c / 64; 128 + c mod 64] else
  if c <? 65536 then [224 + c / 4096; 128 + c / 64 mod 64; 128 + c mod 64]
  else [240 + c / 262144; 128 + c / 4096 mod 64; 128 + c / 64 mod 64; 128 + c mod 64].
Definition utf8 (s : list Z) : list Z := flat_map utf8_char s.

Definition asz (t : ity) : Z := match t with IA => 1 | II => 4 | ID => 8 | IC => 4 | IQ => 1 end. (* align_size, hio.c:236-243 *)
Definition esz (t : ity) : Z := match t with IA => 1 | II => 4 | ID => 8 | IC => 8 | IQ => 1 end. (* H_*_SIZE, hio.h:25-32 *)

Section Hdr.
(* C's conversions between double and float, on bit patterns *)
Variable narrow widen : Z -> Z.
(* uninitialised memory; the buffer size of a small item that is already in memory *)
Variable junk : Z -> Z.
Variable bsz : entry -> Z.

(* miriad_wrap.cpp:499-568 hwrite: the external bytes of a value; Err is an exception. 'a': the
   first PyString_Size (code points) bytes of the UTF-8 string (aipy_compat.h:15-31).
   'i': PyInt_AsLong, then a conversion to int. *)
Definition enc (t : ity) (e : elem) : res (list Z) :=
  match t, e with
  | IA, EStr s => Ok (firstn (length s) (utf8 s))
  | II, EInt z => if (- 2 ^ 63 <=? z) && (z <? 2 ^ 63) then pack32_c 1 (le_bytes 4 z) else Err
  | ID, EDbl x => packd_c 1 (le_bytes 8 x)
  | IC, ECplx a b => packr_c 2 (array_mem 4 [narrow a; narrow b])
  | _, _ => Err
  end.

(* the amount WRAP_hwrite returns *)
Definition advance (t : ity) (e : elem) : Z :=
  match e with EStr s => zlen s | _ => esz t end.

Definition hwrite (it : item) (off : Z) (t : ity) (e : elem) : res (item * Z) :=
  bind (enc t e) (fun bs => match hio_write junk it (asz t) off bs with
                            | Some it' => Ok (it', advance t e) | None => Err end).

(* miriad_wrap.cpp:572-624 hread and, for 'a', miriad.py:120-122: str(c[:o], 'utf-8') of one byte,
   which is empty for a NUL and fails for bytes above 127 *)
Definition dec (t : ity) (bs : list Z) : res elem :=
  match t with
  | IA => match bs with
          | [b] => if b =? 0 then Ok (EStr []) else if b <? 128 then Ok (EStr [b]) else Err
          | _ => Err
          end
  | II => bind (unpack32_c 1 bs) (fun m => Ok (EInt (hd 0 (read_signed 4 1 m))))
  | ID => bind (unpackd_c 1 bs) (fun m => Ok (EDbl (le_val m)))
  | IC => bind (unpackr_c 2 bs) (fun m => Ok (ECplx (widen (le_val (firstn 4 m))) (widen (le_val (skipn 4 m)))))
  | IQ => Err
  end.

Inductive got := GElem (e : elem) | GIOError | GError.
Definition hread (it : item) (off : Z) (t : ity) : item * got :=
  match hio_read junk it (asz t) off (esz t) with
  | (it', HBytes bs) => (it', match dec t bs with Ok e => GElem e | Err => GError end)
  | (it', _) => (it', GIOError)
  end.

(* headio.c:46-53; H_BYTE 1, H_INT 2, H_DBLE 5, H_CMPLX 7 *)
Definition tag (t : ity) : list Z :=
  match t with IA => [0;0;0;1] | II => [0;0;0;2] | ID => [0;0;0;5] | IC => [0;0;0;7] | IQ => [0;0;0;0] end.
(* miriad_wrap.cpp:424-453 hwrite_init: the offset of the first element *)
Definition start_of (t : ity) : Z := mroundup 4 (esz t).
Definition hwrite_init (it : item) (t : ity) : res (item * Z) :=
  match hio_write junk it 1 0 (tag t) with Some it' => Ok (it', start_of t) | None => Err end.

(* miriad_wrap.cpp:455-495 hread_init, for the types of itemtable *)
Definition hread_init (it : item) : res (item * ity * Z) :=
  match hio_read junk it 1 0 4 with
  | (it', HBytes [0; 0; 0; k]) =>
      if k =? 1 then Ok (it', IA, start_of IA) else if k =? 2 then Ok (it', II, start_of II)
      else if k =? 5 then Ok (it', ID, start_of ID) else if k =? 7 then Ok (it', IC, start_of IC) else Err
  | _ => Err
  end.
Definition ity_eqb (a b : ity) : bool :=
  match a, b with IA, IA | II, II | ID, ID | IC, IC | IQ, IQ => true | _, _ => false end.

(* miriad.py:147 *)
Fixpoint wr_elems (it : item) (off : Z) (t : ity) (es : list elem) : res item :=
  match es with
  | [] => Ok it
  | e :: r => bind (hwrite it off t e) (fun p => wr_elems (fst p) (off + snd p) t r)
  end.

(* miriad.py:142-143: what `for v in val` goes through *)
Definition elements (v : pyval) : list elem :=
  match v with Scalar (EStr s) | Text s => map (fun c => EStr [c]) s | Scalar e => [e] | Seq l => l end.

(* miriad.py:172-181 _wrhd_special; k is i % 3 *)
Fixpoint wr_freqs (it : item) (off : Z) (k : nat) (es : list elem) : res item :=
  match es with
  | [] => Ok it
  | e :: r => bind (hwrite it off (match k with O => II | _ => ID end) e) (fun p =>
              wr_freqs (fst p) (off + 8) (match k with O => 1 | 1 => 2 | _ => 0 end)%nat r)
  end.

(* miriad.py:137-151 _wrhd, on the item opened for writing *)
Definition wrhd (it : item) (t : ity) (v : pyval) : res item :=
  match t with
  | IQ => match v with
          | Seq (e :: r) => bind (hwrite it 0 II e) (fun p => wr_freqs (fst p) 8 0 r)
          | _ => Err
          end
  | IA => wr_elems it 0 t (elements v)
  | _ => bind (hwrite_init it t) (fun p => wr_elems (fst p) (snd p) t (elements v))
  end.

(* miriad.py:117-125: read elements until IOError *)
Fixpoint rd_elems (fuel : nat) (it : item) (off : Z) (t : ity) : res (list elem) :=
  match fuel with
  | O => Err
  | S fuel =>
    match hread it off t with
    | (_, GIOError) => Ok []
    | (_, GError) => Err
    | (it', GElem e) => bind (rd_elems fuel it' (off + esz t) t) (fun l => Ok (e :: l))
    end
  end.

(* miriad.py:158-167 *)
Fixpoint rd_freqs (fuel : nat) (it : item) (off : Z) (k : nat) : res (list elem) :=
  match fuel with
  | O => Err
  | S fuel =>
    match hread it off (match k with O => II | _ => ID end) with
    | (_, GIOError) => Ok []
    | (_, GError) => Err
    | (it', GElem e) => bind (rd_freqs fuel it' (off + 8) (match k with O => 1 | 1 => 2 | _ => 0 end)%nat) (fun l => Ok (e :: l))
    end
  end.

Definition join (l : list elem) : list Z := flat_map (fun e => match e with EStr s => s | _ => [] end) l.

(* miriad.py:108-136 _rdhd, on the item opened for reading *)
Definition rdhd (it : item) (t : ity) : res pyval :=
  let fuel := S (Z.to_nat (i_size it)) in
  match t with
  | IA => bind (rd_elems fuel it 0 IA) (fun l => Ok (Text (join l)))
  | IQ => match hread it 0 II with
          | (it', GElem e) => bind (rd_freqs fuel it' 8 0) (fun l => Ok (Seq (e :: l)))
          | _ => Err
          end
  | _ => bind (hread_init it) (fun p => let '(it', t', off) := p in
         if ity_eqb t t' then bind (rd_elems fuel it' off t) (fun l =>
           Ok (match l with [e] => Scalar e | _ => Seq l end))
         else Err)
  end.

(* haccess_c "write", hio.c:544-650: the item before anything is written *)
Definition access_write (n : name) (t : tree) : item :=
  if nocache n then file_item junk junk 0 else
  match find n (t_items t) with
  | None => new_item junk
  | Some e => It false junk 0 0 (bsz e) 0 0 (fun p => nth (Z.to_nat p) (e_data e) 0) false
  end.

(* what hdaccess_c leaves, hio.c:758-819 *)
Definition item_bytes (it : item) : option (list Z) :=
  match hreopen junk it with
  | None => None
  | Some i => Some (map (fun k => (if i_fd i then i_file i else i_buf i) (Z.of_nat k)) (seq 0 (Z.to_nat (i_size i))))
  end.

(* haccess_c "read" of an item with content d *)
Definition access_read (n : name) (t : tree) (d : list Z) : item :=
  let c := fun p => nth (Z.to_nat p) d 0 in
  match find n (t_items t) with
  | Some _ => cached_item junk c (zlen d)
  | None => file_item junk c (zlen d)
  end.

(* uv[n] = v; Err: an exception, which leaves the item open and partly written *)
Definition uset (n : string) (v : pyval) (t : tree) : res tree :=
  match type_of n with
  | None => Err
  | Some ty => bind (wrhd (access_write (codes n) t) ty v) (fun it =>
               match item_bytes it with Some d => Ok (t_set (codes n) d t) | None => Err end)
  end.

(* uv[n]; Ok None: no such item (IOError from haccess or KeyError); Err: an exception later on *)
Definition uget (n : string) (t : tree) : res (tree * option pyval) :=
  match type_of n with
  | None => Ok (t, None)
  | Some ty =>
    let '(t', x) := t_get (codes n) t in
    match x with
    | None => Ok (t', None)
    | Some d => bind (rdhd (access_read (codes n) t' d) ty) (fun v => Ok (t', Some v))
    end
  end.
End Hdr.

(* calls on a data set *)
Inductive vop :=
| VSet (n : string) (v : pyval)
| VGet (n : string)
| VHas (n : string)                       (* n in uv.items(), miriad.py:99-107 *)
(* Close and open again. sys: the items the library itself writes meanwhile (uvio.c uvflush_c,
   uvclose_c): vartable, obstype, ncorr, nwcorr, vislen, visdata, flags, wflags. *)
| VReopen (junk : Z -> Z) (sys : list (name * list Z)).

Inductive vres := VDone | VNone | VVal (v : pyval) | VBool (b : bool) | VErr.

Section Run.
Variable narrow widen : Z -> Z.
Variable junk : Z -> Z.
Variable bsz : entry -> Z.

(* None: an exception left an item open *)
Definition v_step (t : tree) (o : vop) : option tree * vres :=
  match o with
  | VSet n v => match uset narrow junk bsz n v t with Ok t' => (Some t', VDone) | Err => (None, VErr) end
  | VGet n => match uget widen junk n t with
              | Ok (t', Some v) => (Some t', VVal v)
              | Ok (t', None) => (Some t', VNone)
              | Err => (None, VErr)
              end
  | VHas n => match type_of n with
              | None => (Some t, VBool false)
              | Some _ => let '(t', x) := t_get (codes n) t in (Some t', VBool (match x with Some _ => true | None => false end))
              end
  | VReopen j sys => match t_reopen j (fold_left (fun a p => t_set (fst p) (snd p) a) sys t) with
                     | Some t' => (Some t', VDone)
                     | None => (None, VErr)
                     end
  end.

Fixpoint v_run (t : tree) (ops : list vop) : list vres :=
  match ops with
  | [] => []
  | o :: r => match v_step t o with (Some t', x) => x :: v_run t' r | (None, x) => [x] end
  end.
End Run.
