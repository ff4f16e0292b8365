(* Flag bitmaps: aipy/_miriad/mir/maskio.c.
   The item below (hreadi_c/hwritei_c, whole 32-bit words) is a flat array of
   words; that hio.c behaves so is property C05. Uninitialised memory (the
   malloc'ed buffer, file holes) is an arbitrary function. *)
From Verif Require Import Base.

(* BITS_PER_INT, BUFFERSIZE, OFFSET: maskio.c:35,61,62.
   OFFSET = ((4-1)/4+1)*31 = 31: the first word is the item header. *)
Definition BPI : Z := 31.
Definition BUFFERSIZE : Z := 128.
Definition OFFSET : Z := 31.

(* maskio.c:37-45 table bits[i] = 1<<i, 47-55 table masks[i] = (1<<i)-1 *)
Definition bits (i : Z) : Z := Z.shiftl 1 i.
Definition masks (i : Z) : Z := Z.ones i.

(* maskio.c:63-68 MASK_INFO. Not modelled: tno, name; rdonly (mkwrite_c:255-263
   only reopens the same item in append mode). *)
Record mask := Mk {
  m_item : Z -> Z;      (* words of the item *)
  m_nw : Z;             (* number of words in the item *)
  m_buf : Z -> Z;       (* buf[BUFFERSIZE] *)
  m_mod : bool;
  m_off : Z;
  m_len : Z;
  m_size : Z }.

(* Ret: normal return. Bug: bug_c('f',..) / non-zero iostat / (never, proved)
   an access outside buf. NoFuel: the loop counter of the model ran out
   (never, proved). *)
Inductive out (A : Type) := Ret (a : A) | Bug | NoFuel.
Arguments Ret {A} a. Arguments Bug {A}. Arguments NoFuel {A}.

Definition upd (f : Z -> Z) (i v : Z) : Z -> Z := fun k => if k =? i then v else f k.

(* headio.c:48 int_item = {0,0,0,H_INT}: the big-endian word 2 *)
Definition int_item_word : Z := 2.

(* maskio.c:111-127 mkopen_c, status "new"; g is the uninitialised buffer, f0
   the (never read) words beyond the header *)
Definition mkopen_new (f0 g : Z -> Z) : mask :=
  {| m_item := upd f0 0 int_item_word; m_nw := 1; m_buf := g; m_mod := false;
     m_off := - BUFFERSIZE * BPI; m_len := 0; m_size := 1 * BPI |}.

(* maskio.c:98-107,121-127 mkopen_c, status "old", on an item of nw words;
   line 102: there must be more than the header; 104-106: header check *)
Definition mkopen_old (f g : Z -> Z) (nw : Z) : out mask :=
  if nw <=? 1 then Bug else
  if negb (f 0 =? int_item_word) then Bug else
  Ret {| m_item := f; m_nw := nw; m_buf := g; m_mod := false;
         m_off := - BUFFERSIZE * BPI; m_len := 0; m_size := nw * BPI |}.

(* hreadi_c into buf+t: words a .. a+len-1. hio.c returns iostat -1 when the
   end is beyond the item; a negative length transfers nothing. *)
Definition item_read (m : mask) (t a len : Z) : option (Z -> Z) :=
  if a + len >? m_nw m then None
  else if (0 <? len) && ((t <? 0) || (t + len >? BUFFERSIZE)) then None
  else Some (fun k => if (t <=? k) && (k <? t + len) then m_item m (a + (k - t)) else m_buf m k).

(* hwritei_c of buf[0..len-1] to words a.. *)
Definition item_write (m : mask) (a len : Z) : option ((Z -> Z) * Z) :=
  if len >? BUFFERSIZE then None
  else Some (fun k => if (a <=? k) && (k <? a + len) then m_buf m (k - a) else m_item m k,
             if 0 <? len then Z.max (m_nw m) (a + len) else m_nw m).

(* maskio.c:337-380 mkflush_c; C / and % truncate (Z.quot, Z.rem) *)
Definition mkflush (m : mask) : mask * out unit :=
  let r :=
    if m_off m + m_len m >=? m_size m then
      let len := (Z.quot (m_len m - 1) BPI + 1) * BPI in
      Some {| m_item := m_item m; m_nw := m_nw m; m_buf := m_buf m; m_mod := m_mod m;
              m_off := m_off m; m_len := len; m_size := m_off m + len |}
    else if negb (Z.rem (m_len m) BPI =? 0) then
      let w := Z.quot (m_off m + m_len m) BPI in
      if w + 1 >? m_nw m then None else
      let t := m_item m w in
      let b := Z.quot (m_len m) BPI in
      if (b <? 0) || (b >=? BUFFERSIZE) then None else
      let i := Z.rem (m_len m) BPI in
      Some {| m_item := m_item m; m_nw := m_nw m;
              m_buf := upd (m_buf m) b
                (Z.lor (Z.land t (Z.lnot (masks i))) (Z.land (m_buf m b) (masks i)));
              m_mod := m_mod m; m_off := m_off m;
              m_len := (Z.quot (m_len m - 1) BPI + 1) * BPI; m_size := m_size m |}
    else Some m in
  match r with
  | None => (m, Bug)
  | Some m1 =>
      match item_write m1 (Z.quot (m_off m1) BPI) (Z.quot (m_len m1) BPI) with
      | None => (m1, Bug)
      | Some (f, nw) =>
          ({| m_item := f; m_nw := nw; m_buf := m_buf m1; m_mod := false;
              m_off := m_off m1; m_len := m_len m1; m_size := m_size m1 |}, Ret tt)
      end
  end.

(* maskio.c:382-404 mkfill *)
Definition mkfill (m : mask) (offset : Z) : option mask :=
  if m_off m + m_len m <? m_size m then
    let b := Z.quot (m_len m) BPI in
    let t := m_buf m b in
    let off := Z.quot (m_off m + m_len m) BPI in
    let len := Z.min (Z.quot offset BPI + 1) (Z.quot (m_size m) BPI) - off in
    match item_read m b off len with
    | None => None
    | Some buf1 =>
        let i := Z.rem (m_len m) BPI in
        Some {| m_item := m_item m; m_nw := m_nw m;
                m_buf := upd buf1 b
                  (Z.lor (Z.land t (masks i)) (Z.land (buf1 b) (Z.lnot (masks i))));
                m_mod := m_mod m; m_off := m_off m;
                m_len := (off + len) * BPI - m_off m; m_size := m_size m |}
    end
  else Some m.

(* ---- reading ---- *)

(* maskio.c:172-182: get a buffer full of information if we need it *)
Definition rd_window (m : mask) (offset : Z) : mask * out unit :=
  if (offset <? m_off m) || (offset >=? m_off m + m_len m) then
    match (if m_mod m then mkflush m else (m, Ret tt)) with
    | (m1, Ret _) =>
        let o := Z.quot offset BPI * BPI in
        let l := Z.min (m_size m1 - o) (BUFFERSIZE * BPI) in
        let m2 := {| m_item := m_item m1; m_nw := m_nw m1; m_buf := m_buf m1; m_mod := false;
                     m_off := o; m_len := l; m_size := m_size m1 |} in
        if l =? 0 then (m2, Bug) else
        match item_read m2 0 (Z.quot o BPI) (Z.quot l BPI) with
        | None => (m2, Bug)
        | Some b => ({| m_item := m_item m2; m_nw := m_nw m2; m_buf := b; m_mod := false;
                        m_off := o; m_len := l; m_size := m_size m2 |}, Ret tt)
        end
    | (m1, Bug) => (m1, Bug)
    | (m1, NoFuel) => (m1, NoFuel)
    end
  else (m, Ret tt).

(* for(i=boff; i<boff+blen; i++) bits[i] & bitmask *)
Definition word_flags (bitmask boff : Z) (blen : nat) : list bool :=
  map (fun k => negb (Z.land (bits (boff + Z.of_nat k)) bitmask =? 0)) (seq 0 blen).

(* maskio.c:198-210, FLAGS format; w is the word index of *buf *)
Fixpoint rd_flags (fuel : nat) (buf : Z -> Z) (w boff len : Z) : option (list bool) :=
  if len <=? 0 then Some [] else
  match fuel with
  | O => None
  | S f =>
      if (w <? 0) || (w >=? BUFFERSIZE) then None else
      let blen := Z.min (BPI - boff) len in
      let bitmask := buf w in
      let fl :=
        if bitmask =? 2147483647 then repeat true (Z.to_nat blen)
        else if bitmask =? 0 then repeat false (Z.to_nat blen)
        else word_flags bitmask boff (Z.to_nat blen) in
      match rd_flags f buf (w + 1) 0 (len - blen) with
      | None => None
      | Some r => Some (fl ++ r)
      end
  end.

(* maskio.c:171-210,231-234 mkread_c, mode MK_FLAGS (offset already + OFFSET) *)
Fixpoint mkread_loop (fuel : nat) (m : mask) (offset n : Z) (acc : list bool)
  : mask * out (list bool) :=
  if n <=? 0 then (m, Ret acc) else
  match fuel with
  | O => (m, NoFuel)
  | S f =>
      match rd_window m offset with
      | (m1, Ret _) =>
          let boff := offset - m_off m1 in
          let t := Z.quot boff BPI in
          let len := Z.min (m_len m1 - boff) n in
          match rd_flags (Z.to_nat len) (m_buf m1) t (boff - t * BPI) len with
          | None => (m1, Bug)
          | Some fl => mkread_loop f m1 (offset + len) (n - len) (acc ++ fl)
          end
      | (m1, Bug) => (m1, Bug)
      | (m1, NoFuel) => (m1, NoFuel)
      end
  end.

Definition mkread_flags (m : mask) (offset n : Z) : mask * out (list bool) :=
  mkread_loop (Z.to_nat n + 2) m (offset + OFFSET) n [].

(* RUNS format: the loop variables state (false: 0, true: 0x7FFFFFFF), runs and
   the output written so far. maskio.c:153-154 SWITCH_STATE *)
Record rstate := Rs { r_state : bool; r_runs : Z; r_out : list Z }.
Definition switch_state (s : rstate) : rstate :=
  {| r_state := negb (r_state s); r_runs := r_runs s;
     r_out := r_out s ++ [r_runs s + (if r_state s then 0 else 1)] |}.
Definition add_runs (k : Z) (s : rstate) : rstate :=
  {| r_state := r_state s; r_runs := r_runs s + k; r_out := r_out s |}.
Definition state_word (b : bool) : Z := if b then 2147483647 else 0.

(* maskio.c:221-224 *)
Definition run_bit (bitmask : Z) (s : rstate) (i : Z) : rstate :=
  let s := if negb (Z.land (bits i) bitmask =? Z.land (bits i) (state_word (r_state s)))
           then switch_state s else s in
  add_runs 1 s.

(* maskio.c:215-228 *)
Fixpoint rd_runs (fuel : nat) (buf : Z -> Z) (w boff len : Z) (s : rstate) : option rstate :=
  if len <=? 0 then Some s else
  match fuel with
  | O => None
  | S f =>
      if (w <? 0) || (w >=? BUFFERSIZE) then None else
      let blen := Z.min (BPI - boff) len in
      let bitmask := buf w in
      let s' :=
        if bitmask =? state_word (r_state s) then add_runs blen s
        else if bitmask =? state_word (negb (r_state s)) then add_runs blen (switch_state s)
        else fold_left (run_bit bitmask) (map (fun k => boff + Z.of_nat k) (seq 0 (Z.to_nat blen))) s in
      rd_runs f buf (w + 1) 0 (len - blen) s'
  end.

(* maskio.c:171-195,212-234 mkread_c, mode MK_RUNS. The nsize check (232-233)
   is not modelled: the caller's buffer is taken to be large enough. *)
Fixpoint mkread_runs_loop (fuel : nat) (m : mask) (offset n : Z) (s : rstate)
  : mask * out (list Z) :=
  if n <=? 0 then (m, Ret (if r_state s then r_out s ++ [r_runs s] else r_out s)) else
  match fuel with
  | O => (m, NoFuel)
  | S f =>
      match rd_window m offset with
      | (m1, Ret _) =>
          let boff := offset - m_off m1 in
          let t := Z.quot boff BPI in
          let len := Z.min (m_len m1 - boff) n in
          match rd_runs (Z.to_nat len) (m_buf m1) t (boff - t * BPI) len s with
          | None => (m1, Bug)
          | Some s' => mkread_runs_loop f m1 (offset + len) (n - len) s'
          end
      | (m1, Bug) => (m1, Bug)
      | (m1, NoFuel) => (m1, NoFuel)
      end
  end.

Definition mkread_runs (m : mask) (offset n : Z) : mask * out (list Z) :=
  mkread_runs_loop (Z.to_nat n + 2) m (offset + OFFSET) n
    {| r_state := false; r_runs := 0; r_out := [] |}.

(* ---- writing ---- *)

(* maskio.c:268-278: right buffer, flush if not, fill the gap *)
Definition wr_window (m : mask) (offset : Z) : mask * out unit :=
  let p :=
    if (offset <? m_off m) || (offset >=? m_off m + BUFFERSIZE * BPI) then
      match (if m_mod m then mkflush m else (m, Ret tt)) with
      | (m1, Ret _) =>
          ({| m_item := m_item m1; m_nw := m_nw m1; m_buf := m_buf m1; m_mod := false;
              m_off := Z.quot offset BPI * BPI; m_len := 0; m_size := m_size m1 |}, Ret tt)
      | (m1, Bug) => (m1, Bug)
      | (m1, NoFuel) => (m1, NoFuel)
      end
    else (m, Ret tt) in
  match p with
  | (m1, Ret _) =>
      if offset >? m_off m1 + m_len m1 then
        match mkfill m1 offset with None => (m1, Bug) | Some m2 => (m2, Ret tt) end
      else (m1, Ret tt)
  | _ => p
  end.

(* maskio.c:300-304: set or clear bits i, i+1, ... of a word *)
Fixpoint set_bits (bitmask i : Z) (flags : list bool) : Z :=
  match flags with
  | [] => bitmask
  | b :: r => set_bits (if b then Z.lor bitmask (bits i) else Z.land bitmask (Z.lnot (bits i)))
                       (i + 1) r
  end.

(* maskio.c:297-308 *)
Fixpoint wr_flags (fuel : nat) (buf : Z -> Z) (w boff len : Z) (flags : list bool)
  : option (Z -> Z) :=
  if len <=? 0 then Some buf else
  match fuel with
  | O => None
  | S f =>
      if (w <? 0) || (w >=? BUFFERSIZE) then None else
      let blen := Z.min (BPI - boff) len in
      let buf' := upd buf w (set_bits (buf w) boff (firstn (Z.to_nat blen) flags)) in
      wr_flags f buf' (w + 1) 0 (len - blen) (skipn (Z.to_nat blen) flags)
  end.

(* maskio.c:267-308 mkwrite_c, mode MK_FLAGS (offset already + OFFSET) *)
Fixpoint mkwrite_loop (fuel : nat) (m : mask) (offset n : Z) (flags : list bool)
  : mask * out unit :=
  if n <=? 0 then (m, Ret tt) else
  match fuel with
  | O => (m, NoFuel)
  | S f =>
      match wr_window m offset with
      | (m1, Ret _) =>
          let boff := offset - m_off m1 in
          let t := Z.quot boff BPI in
          let len := Z.min (BPI * BUFFERSIZE - boff) n in
          match wr_flags (Z.to_nat len) (m_buf m1) t (boff - t * BPI) len
                         (firstn (Z.to_nat len) flags) with
          | None => (m1, Bug)
          | Some b =>
              mkwrite_loop f
                {| m_item := m_item m1; m_nw := m_nw m1; m_buf := b; m_mod := true;
                   m_off := m_off m1; m_len := Z.max (m_len m1) (offset - m_off m1 + len);
                   m_size := m_size m1 |}
                (offset + len) (n - len) (skipn (Z.to_nat len) flags)
          end
      | (m1, Bug) => (m1, Bug)
      | (m1, NoFuel) => (m1, NoFuel)
      end
  end.

Definition mkwrite_flags (m : mask) (offset : Z) (flags : list bool) : mask * out unit :=
  mkwrite_loop (length flags) m (offset + OFFSET) (Z.of_nat (length flags)) flags.

(* RUNS input: loop variables run, curr, state and the remaining entries. *)
Record wstate := Ws { w_run : Z; w_curr : Z; w_state : bool; w_rest : list Z }.

(* maskio.c:314-323 while(run == 0); rem = n + len *)
Fixpoint next_run (fuel : nat) (rem : Z) (s : wstate) : option wstate :=
  if negb (w_run s =? 0) then Some s else
  match fuel with
  | O => None
  | S f =>
      next_run f rem
        match w_rest s with
        | [] => {| w_run := rem; w_curr := w_curr s; w_state := negb (w_state s); w_rest := [] |}
        | x :: r =>
            let t := x - (if w_state s then 1 else 0) in
            {| w_run := t - w_curr s; w_curr := t; w_state := negb (w_state s); w_rest := r |}
        end
  end.

(* maskio.c:313-332 *)
Fixpoint wr_runs (fuel : nat) (buf : Z -> Z) (w boff len n : Z) (s : wstate)
  : option ((Z -> Z) * wstate) :=
  if len <=? 0 then Some (buf, s) else
  match fuel with
  | O => None
  | S f =>
      match next_run (S (length (w_rest s)) + 1) (n + len) s with
      | None => None
      | Some s1 =>
          if (w <? 0) || (w >=? BUFFERSIZE) then None else
          let blen := Z.min (w_run s1) (Z.min (BPI - boff) len) in
          let bitmask := Z.lxor (masks (boff + blen)) (masks boff) in
          let buf' := upd buf w (if w_state s1 then Z.lor (buf w) bitmask
                                 else Z.land (buf w) (Z.lnot bitmask)) in
          let boff' := Z.rem (boff + blen) BPI in
          wr_runs f buf' (if boff' =? 0 then w + 1 else w) boff' (len - blen) n
            {| w_run := w_run s1 - blen; w_curr := w_curr s1; w_state := w_state s1;
               w_rest := w_rest s1 |}
      end
  end.

(* maskio.c:267-294,312-334 mkwrite_c, mode MK_RUNS *)
Fixpoint mkwrite_runs_loop (fuel : nat) (m : mask) (offset n : Z) (s : wstate)
  : mask * out unit :=
  if n <=? 0 then (m, Ret tt) else
  match fuel with
  | O => (m, NoFuel)
  | S f =>
      match wr_window m offset with
      | (m1, Ret _) =>
          let boff := offset - m_off m1 in
          let t := Z.quot boff BPI in
          let len := Z.min (BPI * BUFFERSIZE - boff) n in
          match wr_runs (Z.to_nat len) (m_buf m1) t (boff - t * BPI) len (n - len) s with
          | None => (m1, Bug)
          | Some (b, s') =>
              mkwrite_runs_loop f
                {| m_item := m_item m1; m_nw := m_nw m1; m_buf := b; m_mod := true;
                   m_off := m_off m1; m_len := Z.max (m_len m1) (offset - m_off m1 + len);
                   m_size := m_size m1 |}
                (offset + len) (n - len) s'
          end
      | (m1, Bug) => (m1, Bug)
      | (m1, NoFuel) => (m1, NoFuel)
      end
  end.

Definition mkwrite_runs (m : mask) (offset n : Z) (runs : list Z) : mask * out unit :=
  mkwrite_runs_loop (Z.to_nat n) m (offset + OFFSET) n
    {| w_run := 0; w_curr := 0; w_state := true; w_rest := runs |}.

(* maskio.c:131-147 mkclose_c then mkopen_c "old" on the same item; g is the new
   uninitialised buffer *)
Definition mkreopen (m : mask) (g : Z -> Z) : mask * out unit :=
  match (if m_mod m then mkflush m else (m, Ret tt)) with
  | (m1, Ret _) =>
      match mkopen_old (m_item m1) g (m_nw m1) with
      | Ret m2 => (m2, Ret tt)
      | _ => (m1, Bug)
      end
  | p => p
  end.

(* Histories *)
Inductive mop :=
| OWrite (offset : Z) (flags : list bool)
| OWriteRuns (offset n : Z) (runs : list Z)
| ORead (offset n : Z)
| OReadRuns (offset n : Z)
| OFlush
| OReopen (garbage : Z -> Z).

Inductive mout :=
| RUnit (r : out unit)
| RFlags (r : out (list bool))
| RRuns (r : out (list Z)).

Definition mstep (m : mask) (o : mop) : mask * mout :=
  match o with
  | OWrite a fl => let '(m', r) := mkwrite_flags m a fl in (m', RUnit r)
  | OWriteRuns a n rs => let '(m', r) := mkwrite_runs m a n rs in (m', RUnit r)
  | ORead a n => let '(m', r) := mkread_flags m a n in (m', RFlags r)
  | OReadRuns a n => let '(m', r) := mkread_runs m a n in (m', RRuns r)
  | OFlush => let '(m', r) := mkflush m in (m', RUnit r)
  | OReopen g => let '(m', r) := mkreopen m g in (m', RUnit r)
  end.

Fixpoint mrun (m : mask) (ops : list mop) : list mout :=
  match ops with
  | [] => []
  | o :: r => let '(m', x) := mstep m o in x :: mrun m' r
  end.
