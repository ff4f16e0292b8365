(* Item I/O: aipy/_miriad/mir/hio.c (hio_c, hcheckbuf_c, hwrite_fill_c,
   haccess_c, hdaccess_c) on top of dio.c. BUFDBUFF is 0 (sysdep.h), so io[1] is
   never allocated, b is always 0 and WAIT does nothing.
   Files and buffers are functions from byte positions to bytes; bytes are
   integers. junk : Z -> Z stands for uninitialised memory. Not modelled: errors of the
   operating system other than reading past the end of a file or on a
   non-open descriptor; text (H_TXT) transfers. *)
From Verif Require Import Base.

(* hio.c:57-59, sysdep.h BUFSIZE 16384, BUFALIGN 2 *)
Definition BUFSIZE : Z := 16384.
Definition BUFALIGN : Z := 2.
Definition CACHESIZE : Z := 64.

(* ITEM and IOB, hio.c:79-95: i_fd = (fd != 0); i_mod = (state == IO_MODIFIED) *)
Record item := It {
  i_fd : bool;
  i_file : Z -> Z;  i_fsize : Z;
  i_size : Z;       i_bsize : Z;
  i_ioff : Z;       i_ilen : Z;
  i_buf : Z -> Z;   i_mod : bool }.

(* conversion of a 64-bit value to C int *)
Definition wrap32 (z : Z) : Z := (z + 2147483648) mod 4294967296 - 2147483648.

(* dio.c:196-209 dread_c: short reads give EIO *)
Definition dread (it : item) (off len : Z) : bool :=
  i_fd it && (0 <=? off) && (0 <=? len) && (off + len <=? i_fsize it).

(* dio.c:211-224 dwrite_c *)
Definition dwrite (it : item) : option item :=
  if i_fd it && (0 <=? i_ioff it) then
    Some {| i_fd := i_fd it;
            i_file := fun p => if (i_ioff it <=? p) && (p <? i_ioff it + i_ilen it)
                               then i_buf it (p - i_ioff it) else i_file it p;
            i_fsize := if 0 <? i_ilen it then Z.max (i_fsize it) (i_ioff it + i_ilen it) else i_fsize it;
            i_size := i_size it; i_bsize := i_bsize it;
            i_ioff := i_ioff it; i_ilen := i_ilen it; i_buf := i_buf it; i_mod := false |}
  else None.

(* hio.c:1174-1203 hwrite_fill_c; next, offset and length are C ints. None: a
   dread error, or a length that overruns the local buffer. *)
Definition hwrite_fill (it : item) (next0 : Z) : option item :=
  let next := wrap32 next0 in
  let offset := wrap32 (BUFALIGN * ((i_ioff it + i_ilen it) / BUFALIGN)) in
  let length0 := wrap32 (BUFALIGN * (Z.quot (next - 1) BUFALIGN + 1) - offset) in
  let length := wrap32 (Z.min length0 (i_size it - offset)) in
  if (length >? BUFSIZE) || negb (dread it offset length) then None else
  let o := wrap32 (i_ioff it + i_ilen it - offset) in
  let len := length - o in
  if len <? 0 then None else
  Some {| i_fd := i_fd it; i_file := i_file it; i_fsize := i_fsize it; i_size := i_size it;
          i_bsize := i_bsize it; i_ioff := i_ioff it; i_ilen := i_ilen it + len;
          i_buf := fun k => if (i_ilen it <=? k) && (k <? i_ilen it + len)
                            then i_file it (offset + o + (k - i_ilen it)) else i_buf it k;
          i_mod := i_mod it |}.

(* hio.c:1129-1172 hcheckbuf_c. dopen_c(..,"write",&size,..) truncates the file
   and sets size to 0. NOCACHE items always have a file, so that test is dropped. *)
Definition hcheckbuf (junk : Z -> Z) (it : item) (next : Z) : item :=
  let regrow b := {| i_fd := i_fd it; i_file := i_file it; i_fsize := i_fsize it; i_size := i_size it;
                     i_bsize := b; i_ioff := i_ioff it; i_ilen := i_ilen it;
                     i_buf := fun k => if k <? i_ilen it then i_buf it k else junk k;
                     i_mod := i_mod it |} in
  let it1 := if (i_bsize it <? next) && (next <=? CACHESIZE) then regrow CACHESIZE
             else if (i_bsize it <=? CACHESIZE) && (next >? CACHESIZE) then regrow BUFSIZE
             else it in
  if negb (i_fd it1) && (i_bsize it1 >? CACHESIZE) then
    {| i_fd := true; i_file := i_file it1; i_fsize := 0; i_size := 0; i_bsize := i_bsize it1;
       i_ioff := i_ioff it1; i_ilen := i_ilen it1; i_buf := i_buf it1; i_mod := i_mod it1 |}
  else it1.

(* hio.c:944-947 *)
Definition check_buffer (junk : Z -> Z) (it : item) (next : Z) : item :=
  if (i_bsize it <? BUFSIZE) && (i_bsize it <? next) then hcheckbuf junk it next else it.

(* hio.c:923-926 WITHIN_BUF *)
Definition within (dowrite : bool) (it : item) (offset : Z) : bool :=
  (0 <? i_ilen it) && (i_ioff it <=? offset) &&
  (offset <? i_ioff it + (if dowrite then i_bsize it else i_ilen it)).

(* hio.c:977-986: flush the window and move it *)
Definition miss (it : item) (offset : Z) : option item :=
  let it1 :=
    if i_mod it then
      let next := i_ioff it + i_ilen it in
      let it0 := if negb (i_ilen it mod BUFALIGN =? 0) && (next <? i_size it)
                 then hwrite_fill it next else Some it in
      match it0 with None => None | Some i => dwrite i end
    else Some it in
  match it1 with
  | None => None
  | Some i => Some {| i_fd := i_fd i; i_file := i_file i; i_fsize := i_fsize i; i_size := i_size i;
                      i_bsize := i_bsize i; i_ioff := offset / BUFALIGN * BUFALIGN; i_ilen := 0;
                      i_buf := i_buf i; i_mod := false |}
  end.

(* hio.c:988-993: read the new window *)
Definition refill (it : item) : option item :=
  let len := Z.min (i_bsize it) (i_size it - i_ioff it) in
  if dread it (i_ioff it) len then
    Some {| i_fd := i_fd it; i_file := i_file it; i_fsize := i_fsize it; i_size := i_size it;
            i_bsize := i_bsize it; i_ioff := i_ioff it; i_ilen := len;
            i_buf := fun k => if (0 <=? k) && (k <? len) then i_file it (i_ioff it + k) else i_buf it k;
            i_mod := i_mod it |}
  else None.

(* hio.c:976-1077,1111-1115 one turn of the loop, dowrite. sz is align_size of the
   type: the pack routines move len/sz elements; when off is not a multiple of sz
   the rest of the chunk comes from align_buf. Returns the bytes consumed. *)
Definition write_iter (junk : Z -> Z) (it : item) (sz offset : Z) (bs : list Z) : option (item * Z) :=
  let length := Z.of_nat (length bs) in
  match (if within true it offset then Some it else miss it offset) with
  | None => None
  | Some it1 =>
      match (if (i_ioff it1 + i_ilen it1 <? offset) && (i_ioff it1 + i_ilen it1 <? i_size it1)
             then hwrite_fill it1 offset else Some it1) with
      | None => None
      | Some it2 =>
          let ilen := Z.max (i_ilen it2) (Z.min (length + offset - i_ioff it2) (i_bsize it2)) in
          let off := offset - i_ioff it2 in
          let len := Z.min length (ilen - off) in
          let full := len / sz * sz in
          Some ({| i_fd := i_fd it2; i_file := i_file it2; i_fsize := i_fsize it2;
                   i_size := Z.max (i_size it2) (i_ioff it2 + ilen);
                   i_bsize := i_bsize it2; i_ioff := i_ioff it2; i_ilen := ilen;
                   i_buf := fun k =>
                     if (off <=? k) && (k <? off + full) then nth (Z.to_nat (k - off)) bs 0
                     else if negb (off mod sz =? 0) && (off + full <=? k) && (k <? off + len) then junk k
                     else i_buf it2 k;
                   i_mod := true |}, len)
      end
  end.

Fixpoint write_loop (fuel : nat) (junk : Z -> Z) (it : item) (sz offset : Z) (bs : list Z) : option item :=
  match bs with
  | [] => Some it
  | _ =>
      match fuel with
      | O => None
      | S f =>
          match write_iter junk it sz offset bs with
          | None => None
          | Some (it', len) =>
              if len <=? 0 then None
              else write_loop f junk it' sz (offset + len) (skipn (Z.to_nat len) bs)
          end
      end
  end.

(* hio.c:844-1117 hio_c with dowrite: bs are the external (packed) bytes *)
Definition hio_write (junk : Z -> Z) (it : item) (sz offset : Z) (bs : list Z) : option item :=
  let next := offset + Z.of_nat (length bs) in
  write_loop (length bs) junk (check_buffer junk it next) sz offset bs.

(* one turn of the loop, reading: bytes of the chunk; the len mod sz last ones
   are not transferred and keep what the caller's buffer held *)
Definition read_iter (junk : Z -> Z) (it : item) (sz offset length : Z) : option (item * list Z) :=
  match (if within false it offset then Some it
         else match miss it offset with None => None | Some i => refill i end) with
  | None => None
  | Some it1 =>
      let off := offset - i_ioff it1 in
      let len := Z.min length (i_ilen it1 - off) in
      let full := len / sz * sz in
      Some (it1, map (fun k => if Z.of_nat k <? full then i_buf it1 (off + Z.of_nat k) else junk (Z.of_nat k))
                     (seq 0 (Z.to_nat len)))
  end.

Fixpoint read_loop (fuel : nat) (junk : Z -> Z) (it : item) (sz offset length : Z) : option (item * list Z) :=
  if length <=? 0 then Some (it, []) else
  match fuel with
  | O => None
  | S f =>
      match read_iter junk it sz offset length with
      | None => None
      | Some (it1, l) =>
          let len := Z.of_nat (List.length l) in
          if len <=? 0 then None else
          match read_loop f junk it1 sz (offset + len) (length - len) with
          | None => None
          | Some (it2, l2) => Some (it2, l ++ l2)
          end
      end
  end.

Inductive hres := HOk | HBytes (l : list Z) | HEof | HErr | HSize (n : Z).

(* hio.c:844-1117 hio_c, reading *)
Definition hio_read (junk : Z -> Z) (it : item) (sz offset length : Z) : item * hres :=
  let next := offset + length in
  if next >? i_size it then (it, HEof) else
  let it1 := check_buffer junk it next in
  match read_loop (Z.to_nat length) junk it1 sz offset length with
  | None => (it1, HErr)
  | Some (it2, l) => (it2, HBytes l)
  end.

(* hio.c:1438-1483 hcreate_item_c: a new small item, no file yet *)
Definition new_item (junk : Z -> Z) : item :=
  {| i_fd := false; i_file := junk; i_fsize := 0; i_size := 0; i_bsize := 0;
     i_ioff := 0; i_ilen := 0; i_buf := junk; i_mod := false |}.

(* hio.c:628-648 haccess_c of an item that lives in a file of n bytes *)
Definition file_item (junk : Z -> Z) (file : Z -> Z) (n : Z) : item :=
  {| i_fd := true; i_file := file; i_fsize := n; i_size := n; i_bsize := BUFSIZE;
     i_ioff := 0; i_ilen := 0; i_buf := junk; i_mod := false |}.

(* hio.c:1301-1309 hcache_read_c: a small item loaded from "header" *)
Definition cached_item (junk : Z -> Z) (content : Z -> Z) (n : Z) : item :=
  {| i_fd := false; i_file := junk; i_fsize := 0; i_size := n; i_bsize := n;
     i_ioff := 0; i_ilen := n; i_buf := content; i_mod := false |}.

(* hio.c:758-819 hdaccess_c then haccess_c "read"/"append" of the same item *)
Definition hreopen (junk : Z -> Z) (it : item) : option item :=
  if i_fd it then
    match (if i_mod it then dwrite it else Some it) with
    | None => None
    | Some i => Some (file_item junk (i_file i) (i_fsize i))
    end
  else Some {| i_fd := i_fd it; i_file := i_file it; i_fsize := i_fsize it; i_size := i_size it;
               i_bsize := i_bsize it; i_ioff := i_ioff it; i_ilen := i_ilen it; i_buf := i_buf it; i_mod := false |}.

(* Histories *)
Inductive hop :=
| HWrite (sz offset : Z) (bs : list Z)
| HRead (sz offset length : Z)
| HGetSize                       (* hsize_c, hio.c:821-842 *)
| HReopen (junk : Z -> Z).

Definition hstep (junk : Z -> Z) (it : item) (o : hop) : item * hres :=
  match o with
  | HWrite sz a bs => match hio_write junk it sz a bs with Some i => (i, HOk) | None => (it, HErr) end
  | HRead sz a n => hio_read junk it sz a n
  | HGetSize => (it, HSize (i_size it))
  | HReopen j => match hreopen j it with Some i => (i, HOk) | None => (it, HErr) end
  end.

Fixpoint hrun (junk : Z -> Z) (it : item) (ops : list hop) : list hres :=
  match ops with
  | [] => []
  | o :: r => let '(it', x) := hstep junk it o in x :: hrun junk it' r
  end.
