(* Selecting and decimating records on reading: aipy/_miriad/mir/uvio.c uvselect_c,
   uv_addopers, uvread_select, uvread_maxvis and the loop of uvread_c;
   aipy/_miriad/miriad_wrap.cpp UVObject_select/read/rewind; aipy/miriad.py UV.select.
   A data set is the list of its records (C12); of a record only what selection looks
   at is kept. Doubles and floats are rationals (no NaN, no overflow).
   Not modelled: "window" and "amplitude" (they do not select records), "source"
   (not reachable from UV.select). *)
From Verif Require Import Base BaselineModel.
From Coq Require Import QArith Qround.
Open Scope Z_scope.

(* uvio.c:397-417 SEL_*; SRC is left out *)
Inductive kind := KVis | KTime | KUvn | KPoint | KDra | KDdec | KInc | KRa | KDec | KPol | KOn
                | KUv | KFreq | KShadow | KBin | KHa | KLst | KElev | KDazim | KDelev.
Definition code (k : kind) : Z :=
  match k with
  | KVis => 1 | KTime => 2 | KUvn => 3 | KPoint => 4 | KDra => 5 | KDdec => 6 | KInc => 7
  | KRa => 8 | KDec => 9 | KPol => 10 | KOn => 11 | KUv => 13 | KFreq => 14 | KShadow => 15
  | KBin => 16 | KHa => 17 | KLst => 18 | KElev => 19 | KDazim => 20 | KDelev => 21 end.
Definition kind_eqb (a b : kind) : bool := code a =? code b.

(* a record as the selection code sees it: the antennas given to UV.write, the time,
   and the values the other kinds of selection compare (e.g. for KUvn u*u+v*v, for
   KUv that times skyfreq^2, for KPoint the largest pointing error) *)
Record vis := Vis {
  v_i : Z; v_j : Z; v_time : Q;
  v_num : kind -> Q;
  v_offs : kind -> list Q;          (* dazim, delev: one value per antenna *)
  v_shadow : Q -> bool;             (* uvread_shadowed for a diameter *)
  v_data : list (Z * Z);            (* the visibilities, as bit patterns *)
  v_flags : list bool }.            (* True: flagged *)

(* uvio.c:419-423 OPERS *)
Record oper := Op { o_kind : kind; o_discard : bool; o_lo : Q; o_hi : Q }.

(* uvio.c:439-447 SELECT, without window and amplitude *)
Record clause := Cl { c_and : bool; c_selants : bool; c_ants : Z -> bool; c_opers : list oper }.

Definition MAXANT : Z := 2048.   (* maxdimc.h:10 *)

(* C conversion of a double to int: towards zero *)
Definition qtrunc (q : Q) : Z := Z.quot (Qnum q) (Zpos (Qden q)).

(* uvio.c:2528-2561 uv_addopers: scan from the end, shift the entries with a larger
   type down, put the newcomer after the first one that is not larger *)
Fixpoint add_rev (op : oper) (rl : list oper) : list oper :=
  match rl with
  | o :: r => if code (o_kind o) >? code (o_kind op) then o :: add_rev op r else op :: rl
  | [] => [op]
  end.
Definition addoper (op : oper) (l : list oper) : list oper := rev (add_rev op (rev l)).

(* calls of UV.select (miriad.py:197-216); antenna numbers as the user gives them *)
Inductive call :=
| CRange (k : kind) (p1 p2 : Q) (inc : bool)
| CAnt (a b : Z) (inc : bool)
| CAuto (inc : bool)
| CAnd | COr | CClear
| CDecimate (n p : Z).

Definition qlt (a b : Q) : bool := negb (Qle_bool b a).

(* uvio.c:2338-2459, the check and the two stored values for each kind *)
Definition range_params (k : kind) (p1 p2 : Q) : res (Q * Q) :=
  match k with
  | KTime | KDazim | KDelev | KDra | KDdec | KRa | KDec | KHa | KElev =>
      if Qle_bool p2 p1 then Err else Ok (p1, p2)
  | KOn | KPol => Ok (p1, p1)
  | KLst => Ok (p1, p2)
  | KUv | KUvn => if Qle_bool p2 p1 || qlt p1 0 then Err else Ok ((p1 * p1)%Q, (p2 * p2)%Q)
  | KFreq => if Qle_bool p2 p1 || Qle_bool p1 0 then Err else Ok (p1, p2)
  | KPoint => if Qle_bool p2 p1 || qlt p1 0 then Err else Ok (p1, p2)
  | KVis => if qlt p2 p1 || qlt p1 1 then Err else Ok (p1, p2)
  | KInc => if qlt p1 1 then Err else Ok (p1, 0%Q)
  | KShadow => if negb (Qeq_bool p1 0) || qlt p2 0 then Err else Ok (p1, p2)
  | KBin => if qlt p1 1 || qlt p2 p1 then Err else Ok (p1, p2)
  end.

(* index of the pair i2 <= i1 in the triangular table, uvio.c:2506,2509 *)
Definition tri (i1 i2 : Z) : Z := (i1 * (i1 - 1)) / 2 + i2 - 1.

(* uvio.c:2488-2516 "auto" and "antennae"; i1, i2 are 1-based here, 0 is all *)
Definition start_ants (c : clause) (discard : bool) : Z -> bool :=
  if c_selants c then c_ants c else fun _ => negb discard.
Definition set_auto (t : Z -> bool) (discard : bool) : Z -> bool :=
  fun p => if existsb (fun k => let i := Z.of_nat k in p =? ((i + 1) * i) / 2 + i) (seq 0 2048)
           then discard else t p.
Definition set_ants (t : Z -> bool) (i1 i2 : Z) (discard : bool) : Z -> bool :=
  if i1 =? 0 then
    fun p => if (0 <=? p) && (p <? MAXANT * (MAXANT + 1) / 2) then discard else t p
  else if i2 =? 0 then
    fun p => if existsb (fun i => p =? tri i1 i) (zrange 1 (i1 + 1)) ||
                existsb (fun i => p =? tri i i1) (zrange (i1 + 1) (MAXANT + 1))
             then discard else t p
  else fun p => if p =? tri i1 i2 then discard else t p.

(* one selection call on the last clause *)
Definition clause_call (c : clause) (x : call) : res clause :=
  match x with
  | CRange k p1 p2 inc =>
      bind (range_params k p1 p2) (fun q =>
        Ok (Cl (c_and c) (c_selants c) (c_ants c) (addoper (Op k (negb inc) (fst q) (snd q)) (c_opers c))))
  | CAuto inc =>
      Ok (Cl (c_and c) true (set_auto (start_ants c (negb inc)) (negb inc)) (c_opers c))
  | CAnt a b inc =>
      let i1 := Z.max (a + 1) (b + 1) in
      let i2 := Z.min (a + 1) (b + 1) in
      if (i1 <? 0) || (MAXANT <? i1) || (i2 <? 0) || (MAXANT <? i2) then Err
      else Ok (Cl (c_and c) true (set_ants (start_ants c (negb inc)) i1 i2 (negb inc)) (c_opers c))
  | _ => Ok c
  end.

Definition empty_clause (a : bool) : clause := Cl a false (fun _ => false) [].

Fixpoint on_last (f : clause -> res clause) (l : list clause) : res (list clause) :=
  match l with
  | [] => bind (f (empty_clause true)) (fun c => Ok [c])
  | [c] => bind (f c) (fun c' => Ok [c'])
  | c :: r => bind (on_last f r) (fun r' => Ok (c :: r'))
  end.

(* uvio.c:2292-2521 uvselect_c *)
Definition uvselect (l : list clause) (x : call) : res (list clause) :=
  match x with
  | CClear => Ok []
  | CAnd => Ok (match l with [] => [] | _ => l ++ [empty_clause true] end)
  | COr => Ok (match l with [] => [] | _ => l ++ [empty_clause false] end)
  | CDecimate _ _ => Ok l
  | _ => on_last (fun c => clause_call c x) l
  end.

Definition inr (lo x hi : Q) : bool := Qle_bool lo x && Qle_bool x hi.

(* uvio.c:3190-3506: does an operation apply to the record? n is uv->callno *)
Definition hit (n : Z) (v : vis) (o : oper) : bool :=
  match o_kind o with
  | KVis => inr (o_lo o) (inject_Z n) (o_hi o)
  | KTime => let i1 := qtrunc (v_time v - (1 # 2)) in
             let t0 := (v_time v - inject_Z i1 - (1 # 2))%Q in
             inr (o_lo o) (v_time v) (o_hi o) || inr (o_lo o) t0 (o_hi o)
  | KDazim | KDelev => existsb (fun x => inr (o_lo o) x (o_hi o)) (v_offs v (o_kind o))
  | KInc => Z.rem (n - 1) (qtrunc (o_lo o + (1 # 2))) =? 0
  | KPol | KOn => Qeq_bool (o_lo o) (v_num v (o_kind o))
  | KShadow => v_shadow v (o_hi o)
  | KBin => let b := qtrunc (v_num v KBin) in
            (qtrunc (o_lo o + (1 # 2)) <=? b) && (b <=? qtrunc (o_hi o + (1 # 2)))
  | KLst => if qlt (o_lo o) (o_hi o) then inr (o_lo o) (v_num v KLst) (o_hi o)
            else Qle_bool (o_lo o) (v_num v KLst) || Qle_bool (v_num v KLst) (o_hi o)
  | k => inr (o_lo o) (v_num v k) (o_hi o)
  end.

(* the while loop of one kind: the last operation that applies decides *)
Fixpoint group (k : kind) (n : Z) (v : vis) (d : bool) (ops : list oper) : bool * list oper :=
  match ops with
  | o :: r => if kind_eqb (o_kind o) k then group k n v (if hit n v o then o_discard o else d) r else (d, ops)
  | [] => (d, [])
  end.

(* the order in which uvread_select tests the kinds; dazim and delev come early
   although their numbers are the largest *)
Definition test_order : list kind :=
  [KVis; KTime; KUvn; KPoint; KDazim; KDelev; KDra; KDdec; KInc; KRa; KDec; KPol; KOn; KUv; KFreq;
   KShadow; KBin; KHa; KLst; KElev].

Fixpoint groups (order : list kind) (n : Z) (v : vis) (ops : list oper) : bool :=
  match order with
  | [] => false
  | k :: order' =>
    match ops with
    | [] => false
    | o :: _ =>
      if kind_eqb (o_kind o) k then
        let '(d, r) := group k n v (negb (o_discard o)) ops in
        if d then true else groups order' n v r
      else groups order' n v ops
    end
  end.

(* uvio.c:3171-3181 antennas; the baseline variable holds MKBL(i,j) *)
Definition ants_discard (c : clause) (v : vis) : bool :=
  if c_selants c then
    let '(i1, i2) := uvbasant (mkbl (v_i v) (v_j v)) in
    if (i1 <? 1) || (MAXANT <? i2) then true else c_ants c ((i2 * (i2 - 1)) / 2 + i1 - 1)
  else false.

Definition clause_discard (c : clause) (n : Z) (v : vis) : bool :=
  ants_discard c v || groups test_order n v (c_opers c).

(* uvio.c:3160-3538 uvread_select: selprev over the clauses *)
Fixpoint sel_loop (selprev : bool) (l : list clause) (n : Z) (v : vis) : bool :=
  match l with
  | [] => selprev
  | c :: r => if (negb selprev && c_and c) || (selprev && negb (c_and c)) then sel_loop selprev r n v
              else sel_loop (negb (clause_discard c n v)) r n v
  end.
Definition selected (l : list clause) (n : Z) (v : vis) : bool := sel_loop true l n v.

(* uvio.c:3942-3967 uvread_maxvis *)
Fixpoint clause_maxvis (temp : Z) (ops : list oper) : option Z :=   (* None: return 0 *)
  match ops with
  | [] => Some temp
  | o :: r =>
    match o_kind o with
    | KVis =>
      let ihi := qtrunc (o_hi o + (1 # 2)) in
      let ilo := qtrunc (o_lo o + (1 # 2)) in
      if o_discard o && (temp =? 0) then None
      else clause_maxvis (if o_discard o then (if temp <=? ihi then Z.min temp ilo else temp)
                          else Z.max temp ihi) r
    | _ => clause_maxvis temp r
    end
  end.
Fixpoint maxvis (acc : Z) (l : list clause) : Z :=
  match l with
  | [] => acc
  | c :: r => match clause_maxvis 0 (c_opers c) with
              | None => 0
              | Some t => if t <=? 0 then 0 else maxvis (Z.max acc t) r
              end
  end.

(* the reader: selection, position, uv->maxvis, UVF_INIT, and the wrapper's counters *)
Record rdr := Rdr {
  s_all : list vis; s_rest : list vis; s_callno : Z;
  s_sel : list clause; s_init : bool; s_maxvis : Z;
  s_dec : Z; s_phase : Z; s_int : Z; s_cur : Q }.

(* uvio.c:2850-2872 uvread_c; the last component is the record, None for nread=0 *)
Fixpoint c_read (sel : list clause) (init : bool) (mv n : Z) (rest : list vis)
  : bool * Z * Z * list vis * option vis :=
  if (0 <? mv) && (mv <? n) then (init, mv, n, rest, None) else
  match rest with
  | [] => (init, mv, n + 1, [], None)
  | v :: r =>
    let mv' := if init then mv else match sel with [] => mv | _ => maxvis 0 sel end in
    if selected sel (n + 1) v then (true, mv', n + 1, r, Some v)
    else c_read sel true mv' (n + 1) r
  end.

(* miriad_wrap.cpp:109-126. When nothing was read the C code compares an
   uninitialised time; the counters are then left unspecified there and unchanged here. *)
Fixpoint w_read (fuel : nat) (s : rdr) : rdr * option vis :=
  match fuel with
  | O => (s, None)
  | S fuel =>
    let '(init, mv, n, r, x) := c_read (s_sel s) (s_init s) (s_maxvis s) (s_callno s) (s_rest s) in
    match x with
    | None => (Rdr (s_all s) r n (s_sel s) init mv (s_dec s) (s_phase s) (s_int s) (s_cur s), None)
    | Some v =>
      let same := Qeq_bool (v_time v) (s_cur s) in
      let i := if same then s_int s else s_int s + 1 in
      let c := if same then s_cur s else v_time v in
      let s' := Rdr (s_all s) r n (s_sel s) init mv (s_dec s) (s_phase s) i c in
      if Z.rem (i - s_phase s) (s_dec s) =? 0 then (s', Some v) else w_read fuel s'
    end
  end.

(* UV.read (miriad.py:217-225): None is IOError *)
Definition uv_read (s : rdr) : rdr * option vis := w_read (S (length (s_rest s))) s.

(* uvrewind_c and miriad_wrap.cpp:85-91 *)
Definition uv_rewind (s : rdr) : rdr :=
  Rdr (s_all s) (s_all s) 0 (s_sel s) (s_init s) (s_maxvis s) (s_dec s) (s_phase s) (-1) (- (1)).

(* miriad_wrap.cpp:375-393 and miriad.py:197-216; uvselect_c clears UVF_INIT *)
Definition uv_select (s : rdr) (x : call) : res rdr :=
  match x with
  | CDecimate n p => Ok (Rdr (s_all s) (s_rest s) (s_callno s) (s_sel s) (s_init s) (s_maxvis s) n p (s_int s) (s_cur s))
  | _ => bind (uvselect (s_sel s) x) (fun l =>
           Ok (Rdr (s_all s) (s_rest s) (s_callno s) l false (s_maxvis s) (s_dec s) (s_phase s) (s_int s) (s_cur s)))
  end.

(* uvopen_c (uvio.c:1057) and miriad_wrap.cpp:46-52 *)
Definition uv_fresh (recs : list vis) : rdr := Rdr recs recs 0 [] false 0 1 0 (-1) (- (1)).

Inductive sop := SSel (x : call) | SRead | SRewind.
Definition sstep (s : rdr) (o : sop) : res rdr :=
  match o with SSel x => uv_select s x | SRead => Ok (fst (uv_read s)) | SRewind => Ok (uv_rewind s) end.
Fixpoint srun (s : rdr) (l : list sop) : res rdr :=
  match l with [] => Ok s | o :: r => bind (sstep s o) (fun s' => srun s' r) end.

(* k calls of read *)
Fixpoint nreads (k : nat) (s : rdr) : list (option vis) :=
  match k with O => [] | S k' => let '(s', x) := uv_read s in x :: nreads k' s' end.
