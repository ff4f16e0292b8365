(* The visibility stream of a UV data set: variables, records, reading back.
   aipy/_miriad/mir/uvio.c. The item "visdata" is a flat byte file here (what
   the buffered item layer provides, property C05); its unwritten bytes are
   arbitrary. Values are kept in their external (file) byte form; the codecs
   are property C04. C ints and off64_t are unbounded integers. *)
From Verif Require Import Base.
From Coq Require Import String Ascii.
Open Scope Z_scope.

(* hio.h type codes used for variables; H_INT8 and H_TXT never are *)
Inductive ty := TByte | TInt | TInt2 | TReal | TDble | TCmplx.

Definition ty_eqb (a b : ty) : bool :=
  match a, b with
  | TByte, TByte | TInt, TInt | TInt2, TInt2 | TReal, TReal | TDble, TDble | TCmplx, TCmplx => true
  | _, _ => false
  end.

(* aipy/_miriad/mir/uvio.c:995-1003  external_size *)
Definition ext (t : ty) : Z :=
  match t with TByte => 1 | TInt => 4 | TInt2 => 2 | TReal => 4 | TDble => 8 | TCmplx => 8 end.

(* aipy/_miriad/mir/hio.h mroundup *)
Definition mroundup (a b : Z) : Z := b * ((a + b - 1) / b).

(* a file: its size and its bytes *)
Record file := Fl { f_size : Z; f_at : Z -> Z }.

Definition zlen {A} (l : list A) : Z := Z.of_nat (List.length l).

(* hwrite_c on the item, as established by C05 *)
Definition fput (f : file) (a : Z) (bs : list Z) : file :=
  Fl (Z.max (f_size f) (a + zlen bs))
     (fun p => if (a <=? p) && (p <? a + zlen bs) then nth (Z.to_nat (p - a)) bs 0 else f_at f p).

(* hread_c on the item: None when the read would pass the end (iostat -1) *)
Definition fget (f : file) (a n : Z) : option (list Z) :=
  if a + n >? f_size f then None
  else Some (map (fun k => f_at f (a + Z.of_nat k)) (seq 0 (Z.to_nat n))).

(* H_INT big-endian *)
Definition be4 (v : Z) : list Z := [v / 16777216 mod 256; v / 65536 mod 256; v / 256 mod 256; v mod 256].
Definition rd4 (l : list Z) : Z :=
  match l with
  | [a; b; c; d] => let u := a * 16777216 + b * 65536 + c * 256 + d in
                    if u <? 2147483648 then u else u - 4294967296
  | _ => 0
  end.

(* uvio.c:367-369  record headers; the variable index goes to byte 0 *)
Definition hdr (code idx : Z) : list Z := [idx mod 256; 0; code; 0].
Definition VAR_SIZE := 0.
Definition VAR_DATA := 1.
Definition VAR_EOR := 2.

(* ---------- writing ---------- *)

(* uvio.c VARIABLE while writing; the position in the list is v->index *)
Record wvar := WV {
  w_name : string; w_ty : ty; w_len : Z;
  w_buf : option (list Z);    (* NULL is None *)
  w_nocheck : bool; w_call : Z }.

Record writer := Wr {
  w_vars : list wvar;
  w_off : Z;
  w_file : file;
  w_init : bool;              (* UVF_INIT *)
  w_flags : list bool }.      (* the "flags" bitmap up to corr_flags.offset *)

Fixpoint find_name {A} (nm : A -> string) (n : string) (l : list A) : option nat :=
  match l with
  | [] => None
  | v :: r => if String.eqb (nm v) n then Some O else option_map S (find_name nm n r)
  end.

Fixpoint upd {A} (l : list A) (i : nat) (x : A) : list A :=
  match l, i with
  | [], _ => []
  | _ :: r, O => x :: r
  | y :: r, S j => y :: upd r j x
  end.

(* uvio.c:1222-1257 uv_mkvar, 1259-1274 uv_locvar: the hash chains are a search
   by name. A name longer than MAXNAM=8 is fatal. The array has 256 entries and
   no bound check; the list grows without limit instead. *)
Definition mkvar (vs : list wvar) (n : string) (t : ty) : res (nat * list wvar) :=
  match find_name w_name n vs with
  | Some i => Ok (i, vs)
  | None => if (8 <? String.length n)%nat then Err
            else Ok (List.length vs, vs ++ [WV n t 0 None false 0])
  end.

Fixpoint list_eqb (a b : list Z) : bool :=
  match a, b with
  | [], [] => true
  | x :: a', y :: b' => (x =? y) && list_eqb a' b'
  | _, _ => false
  end.

Definition obuf (o : option (list Z)) : list Z := match o with Some b => b | None => [] end.

(* uvio.c:1679-1773 uvputvr_c. bs: the n elements in external form; n = |bs|/size.
   Comparing external bytes stands for comparing host bytes (C04; for H_INT2
   values outside 16 bits the real code may write an unchanged value again). *)
Definition uvputvr (w : writer) (t : ty) (n : string) (bs : list Z) : res writer :=
  if zlen bs / ext t <=? 0 then Ok w else
  match mkvar (w_vars w) n t with
  | Err => Err
  | Ok (i, vs) =>
    match nth_error vs i with
    | None => Err
    | Some v =>
      if negb (ty_eqb (w_ty v) t) then Err else
      let len := zlen bs in
      let resize := negb (w_len v =? len) in
      let f1 := if resize
                then fput (fput (w_file w) (w_off w) (hdr VAR_SIZE (Z.of_nat i))) (w_off w + 4) (be4 len)
                else w_file w in
      let off1 := if resize then w_off w + 8 else w_off w in
      let changed := w_nocheck v || resize || negb (list_eqb (obuf (w_buf v)) bs) in
      if changed then
        let f2 := fput f1 off1 (hdr VAR_DATA (Z.of_nat i)) in
        let off2 := off1 + mroundup 4 (ext t) in
        let f3 := fput f2 off2 bs in
        let off3 := mroundup (off2 + len) 8 in
        let v' := if w_call v >? 6
                  then WV (w_name v) t len (w_buf v) true (w_call v + 1)
                  else if w_nocheck v
                  then WV (w_name v) t len (w_buf v) true (w_call v + 1)
                  else WV (w_name v) t len (Some bs) false (w_call v + 1) in
        Ok (Wr (upd vs i v') off3 f3 (w_init w) (w_flags w))
      else
        Ok (Wr (upd vs i (WV (w_name v) t len (w_buf v) (w_nocheck v) 0)) off1 f1 (w_init w) (w_flags w))
    end
  end.

(* uvio.c:1276-1306 uvnext_c, writing branch *)
Definition uvnext (w : writer) : writer :=
  Wr (w_vars w) (w_off w + 8) (fput (w_file w) (w_off w) (hdr VAR_EOR 0)) (w_init w) (w_flags w).

(* One call of uvwrite_c: preamble (u,v,w,t as 8 file bytes each, baseline as
   the 4 bytes of the float), channel count, correlations and flags. *)
Record urec := Rec {
  r_u : list Z; r_v : list Z; r_w : list Z; r_t : list Z; r_bl : list Z;
  r_n : Z; r_tscale : list Z; r_corr : list Z; r_fl : list bool }.

Section WithHost.
(* host floating point, on byte patterns: C's == on doubles and floats, and
   adding 1000; junk: what Malloc returns *)
Variable feq8 : list Z -> list Z -> bool.
Variable feq4 : list Z -> list Z -> bool.
Variable add1000 : list Z -> list Z.
Variable addf1000 : list Z -> list Z.
Variable junk : list Z.
(* uvset_c(tno,"corr",..): 'r' gives H_REAL, 'j' gives H_INT2 (uvio.c:2640-2660) *)
Variable corrty : ty.

Definition setv (vs : list wvar) (i : nat) (nocheck : bool) (b : option (list Z)) : list wvar :=
  match nth_error vs i with
  | Some v => upd vs i (WV (w_name v) (w_ty v) (w_len v) b nocheck (w_call v))
  | None => vs
  end.

(* uvio.c:2022-2048: create a preamble variable, exempt it from change checks,
   and give it a first buffer if it has none *)
Definition init_pre (vs : list wvar) (n : string) (t : ty) (b : list Z) : res (list wvar) :=
  bind (mkvar vs n t) (fun p =>
    match nth_error (snd p) (fst p) with
    | None => Err
    | Some v => Ok (setv (snd p) (fst p) true
                     (Some (match w_buf v with Some b0 => b0 | None => b end)))
    end).

(* uvio.c:1992-2049: first call. Note the indices: time from preamble[2] (which is
   w), baseline from preamble[3] (which is the time). *)
Definition uvwrite_init (w : writer) (r : urec) : res writer :=
  if w_init w then Ok w else
  bind (mkvar (w_vars w) "corr" corrty) (fun p =>
  let vs0 := match nth_error (snd p) (fst p) with
             | Some v => setv (snd p) (fst p) true (w_buf v)
             | None => snd p end in
  bind (init_pre vs0 "coord" TDble (add1000 (r_u r) ++ junk)) (fun vs1 =>
  bind (init_pre vs1 "time" TDble (add1000 (r_w r))) (fun vs2 =>
  bind (init_pre vs2 "baseline" TReal (addf1000 (r_t r))) (fun vs3 =>
  Ok (Wr vs3 (w_off w) (w_file w) true (w_flags w)))))).

Definition buf_of (w : writer) (n : string) : list Z :=
  match find_name w_name n (w_vars w) with
  | Some i => match nth_error (w_vars w) i with Some v => obuf (w_buf v) | None => [] end
  | None => []
  end.

Definition set_buf (w : writer) (n : string) (b : list Z) : writer :=
  match find_name w_name n (w_vars w) with
  | Some i => match nth_error (w_vars w) i with
              | Some v => Wr (setv (w_vars w) i (w_nocheck v) (Some b)) (w_off w) (w_file w)
                             (w_init w) (w_flags w)
              | None => w end
  | None => w
  end.

Definition corr_len (w : writer) : Z :=
  match find_name w_name "corr" (w_vars w) with
  | Some i => match nth_error (w_vars w) i with Some v => w_len v | None => 0 end
  | None => 0
  end.

(* uvio.c:350 NUMCHAN *)
Definition numchan (t : ty) (len : Z) : Z :=
  match t with TInt2 | TReal => len / (2 * ext t) | _ => len / ext t end.

Definition d0 (b : list Z) := firstn 8 b.
Definition d1 (b : list Z) := firstn 8 (skipn 8 b).
Definition d2 (b : list Z) := firstn 8 (skipn 16 b).

(* uvio.c:1952-2134 uvwrite_c with UVF_DOW set (the wrapper always asks for
   "uvw/time/baseline") and a channel line. The quantisation of 'j' data is C17. *)
Definition uvwrite (w : writer) (r : urec) : res writer :=
  bind (uvwrite_init w r) (fun w =>
  bind (if r_n r =? numchan corrty (corr_len w) then Ok w
        else uvputvr w TInt "nchan" (be4 (r_n r))) (fun w =>
  let w := Wr (w_vars w) (w_off w) (w_file w) (w_init w) (w_flags w ++ r_fl r) in
  bind (match corrty with
        | TInt2 => uvputvr w TReal "tscale" (r_tscale r)
        | _ => Ok w end) (fun w =>
  bind (uvputvr w corrty "corr" (r_corr r)) (fun w =>
  let d := buf_of w "coord" in
  bind (if negb (feq8 (d0 d) (r_u r)) || negb (feq8 (d1 d) (r_v r)) || negb (feq8 (d2 d) (r_w r))
        then bind (uvputvr w TDble "coord" (r_u r ++ r_v r ++ r_w r)) (fun w =>
             Ok (set_buf w "coord" (r_u r ++ r_v r ++ r_w r)))
        else Ok w) (fun w =>
  bind (if negb (feq8 (r_t r) (buf_of w "time"))
        then bind (uvputvr w TDble "time" (r_t r)) (fun w => Ok (set_buf w "time" (r_t r)))
        else Ok w) (fun w =>
  bind (if negb (feq4 (r_bl r) (buf_of w "baseline"))
        then bind (uvputvr w TReal "baseline" (r_bl r)) (fun w => Ok (set_buf w "baseline" (r_bl r)))
        else Ok w) (fun w =>
  Ok (uvnext w)))))))).

(* uvio.c:773-778 uvopen_c "new", then miriad_wrap.cpp:61-64 uvset_c(tno,"corr",..),
   uvio.c:2618-2628: the correlation variable exists from the start *)
Definition uv_new (f0 : file) : writer := Wr [WV "corr" corrty 0 None false 0] 0 f0 false [].

Inductive uop := UPut (n : string) (t : ty) (bs : list Z) | URec (r : urec).

Definition ustep (w : writer) (o : uop) : res writer :=
  match o with UPut n t bs => uvputvr w t n bs | URec r => uvwrite w r end.

Fixpoint urun (w : writer) (ops : list uop) : res writer :=
  match ops with [] => Ok w | o :: r => bind (ustep w o) (fun w' => urun w' r) end.

(* ---------- reading ---------- *)

Record rvar := RV {
  v_name : string; v_ty : ty; v_flen : Z; v_buf : option (list Z); v_call : Z }.

Record reader := Rd {
  rd_vars : list rvar; rd_off : Z; rd_file : file; rd_max : Z; rd_callno : Z; rd_mark : Z;
  rd_flags : list bool; rd_foff : Z; rd_init : bool }.

(* uvclose_c then uvopen_c "old": uvio.c:837-935, 736-765. The variable table is
   carried over by the item "vartable" (names and types in order), the length of
   the stream by the item "vislen", the flags by the item "flags" (C09).
   No header item shares its name with a variable (uv_override). *)
Definition uv_open (w : writer) : reader :=
  Rd (map (fun v => RV (w_name v) (w_ty v) 0 None 0) (w_vars w)) 0 (w_file w) (w_off w) 0 0
     (w_flags w) 0 false.

(* Realloc: the old bytes, then unspecified ones *)
Definition realloc (o : option (list Z)) (n : Z) : list Z :=
  firstn (Z.to_nat n) (obuf o ++ repeat 0 (Z.to_nat n)).

Inductive scanres := ScOk (r : reader) | ScEof (r : reader) | ScErr.

Definition with_vars (r : reader) (vs : list rvar) : reader :=
  Rd vs (rd_off r) (rd_file r) (rd_max r) (rd_callno r) (rd_mark r) (rd_flags r) (rd_foff r) (rd_init r).

(* uvio.c:1861-1950 uv_scan with vt=NULL, after callno++; off is the local offset.
   The header byte is a signed char: an index of 128 or more indexes before the
   variable array (ScErr here, undefined in C). Running out of fuel is ScErr;
   every turn advances by at least 8, see scan_fuel. *)
Fixpoint scan_loop (fuel : nat) (r : reader) (off : Z) : scanres :=
  match fuel with
  | O => ScErr
  | S fuel =>
    if off >=? rd_max r then ScEof r else
    match fget (rd_file r) off 4 with
    | None => ScEof r
    | Some s =>
      let code := nth 2 s 0 in
      if code =? VAR_EOR then
        ScOk (Rd (rd_vars r) (off + 8) (rd_file r) (rd_max r) (rd_callno r) (rd_mark r)
                 (rd_flags r) (rd_foff r) (rd_init r))
      else
      let s0 := nth 0 s 0 in
      if s0 >=? 128 then ScErr else
      let i := Z.to_nat s0 in
      match nth_error (rd_vars r) i with
      | None => ScErr
      | Some v =>
        if code =? VAR_SIZE then
          match fget (rd_file r) (off + 4) 4 with
          | None => ScErr
          | Some b =>
            let len := rd4 b in
            if len <=? 0 then ScErr
            else if negb (len mod ext (v_ty v) =? 0) then ScErr
            else scan_loop fuel
                   (with_vars r (upd (rd_vars r) i
                      (RV (v_name v) (v_ty v) len (Some (realloc (v_buf v) len)) (rd_callno r))))
                   (off + 8)
          end
        else if code =? VAR_DATA then
          let off1 := off + mroundup 4 (ext (v_ty v)) in
          match fget (rd_file r) off1 (v_flen v) with
          | None => ScErr
          | Some b =>
            scan_loop fuel
              (with_vars r (upd (rd_vars r) i
                 (RV (v_name v) (v_ty v) (v_flen v) (Some b) (rd_callno r))))
              (mroundup (off1 + v_flen v) 8)
          end
        else ScErr
      end
    end
  end.

Definition scan_fuel (r : reader) : nat := S (Z.to_nat (rd_max r)).

(* uv_scan: callno++, then the loop *)
Definition uv_scan (r : reader) : scanres :=
  scan_loop (scan_fuel r)
    (Rd (rd_vars r) (rd_off r) (rd_file r) (rd_max r) (rd_callno r + 1) (rd_mark r)
        (rd_flags r) (rd_foff r) (rd_init r)) (rd_off r).

Definition rfind (r : reader) (n : string) : option rvar :=
  match find_name v_name n (rd_vars r) with Some i => nth_error (rd_vars r) i | None => None end.

(* uvio.c uv_checkvar *)
Definition checkvar (r : reader) (n : string) (t : ty) : bool :=
  match rfind r n with
  | None => false
  | Some v => ty_eqb (v_ty v) t && (match v_buf v with None => false | Some _ => true end)
              && (0 <? v_flen v)
  end.

(* uvio.c:1575-1631 uvgetvr_c *)
Definition uvgetvr (r : reader) (n : string) : option (list Z) :=
  match rfind r n with Some v => v_buf v | None => None end.

Inductive rdres := RdRec (x : urec) | RdEof | RdErr.

(* what uvread_c hands back for the current record: uvio.c:2892-2930
   uvread_preamble, 3992-4130 uvread_line, 4335-4404 uvread_flags *)
Definition current (r : reader) (nsize : Z) : rdres :=
  match rfind r "coord", rfind r "time", rfind r "baseline", rfind r "corr" with
  | Some c, Some t, Some b, Some v =>
    let n := numchan (v_ty v) (v_flen v) in
    if (n <=? 0) || (n >? nsize) then RdErr
    else RdRec (Rec (d0 (obuf (v_buf c))) (d1 (obuf (v_buf c))) (d2 (obuf (v_buf c)))
                    (obuf (v_buf t)) (obuf (v_buf b)) n
                    (match v_ty v with
                     | TInt2 => obuf (match rfind r "tscale" with Some s => v_buf s | None => None end)
                     | _ => [] end)
                    (obuf (v_buf v))
                    (firstn (Z.to_nat n) (skipn (Z.to_nat (rd_foff r - n)) (rd_flags r))))
  | _, _, _, _ => RdErr
  end.

(* uvio.c:3700-3940 uvread_init: the variables the preamble needs must be there
   after the first scan *)
Definition rd_checks (r : reader) : bool :=
  checkvar r "coord" TDble && checkvar r "time" TDble && checkvar r "baseline" TReal &&
  (match rfind r "corr" with
   | Some v => match v_ty v with TInt2 => checkvar r "tscale" TReal | TReal => true | _ => false end
   | None => false end).

(* uvio.c:2850-2863: scan until a record with correlations; no selection *)
Fixpoint read_loop (fuel : nat) (r : reader) : scanres :=
  match fuel with
  | O => ScErr
  | S fuel =>
    match uv_scan r with
    | ScErr => ScErr
    | ScEof r' => ScEof r'
    | ScOk r1 =>
      if negb (rd_init r1) && negb (rd_checks r1) then ScErr else
      match rfind r1 "corr" with
      | None => ScErr
      | Some v =>
        let fresh := v_call v =? rd_callno r1 in
        let r2 := Rd (rd_vars r1) (rd_off r1) (rd_file r1) (rd_max r1) (rd_callno r1) (rd_mark r1)
                     (rd_flags r1)
                     (if fresh then rd_foff r1 + numchan (v_ty v) (v_flen v) else rd_foff r1) true in
        if v_call v <? rd_callno r1 then read_loop fuel r2 else ScOk r2
      end
    end
  end.

(* uvio.c:2796-2890 uvread_c; nsize is the size of the caller's buffer. An error
   ends the program or raises; the state then is the one before the call. *)
Definition uvread (nsize : Z) (r : reader) : reader * rdres :=
  let r0 := Rd (rd_vars r) (rd_off r) (rd_file r) (rd_max r) (rd_callno r) (rd_callno r + 1)
               (rd_flags r) (rd_foff r) (rd_init r) in
  match rfind r0 "corr" with
  | None => (r, RdErr)            (* uvread_defline: no correlations in this file *)
  | Some _ =>
    match read_loop (scan_fuel r) r0 with
    | ScErr => (r, RdErr)
    | ScEof r' => (r', RdEof)
    | ScOk r' => (r', current r' nsize)
    end
  end.

(* uvio.c:1308-1338 uvrewind_c; values are kept, their call numbers are cleared *)
Definition uvrewind (r : reader) : reader :=
  Rd (map (fun v => RV (v_name v) (v_ty v) (v_flen v) (v_buf v) 0) (rd_vars r)) 0 (rd_file r)
     (rd_max r) 0 0 (rd_flags r) 0 (rd_init r).

(* k reads in a row: after each, the state and the answer *)
Fixpoint reads (nsize : Z) (k : nat) (r : reader) : list (reader * rdres) :=
  match k with
  | O => []
  | S k' => let x := uvread nsize r in x :: reads nsize k' (fst x)
  end.
End WithHost.

(* a history of calls on a data set opened for reading: miriad_wrap.cpp:85-140,
   read with room for nsize channels, or rewind *)
Inductive rop := RRead (nsize : Z) | RRewind.
Definition rstep (r : reader) (o : rop) : reader :=
  match o with RRead n => fst (uvread n r) | RRewind => uvrewind r end.
