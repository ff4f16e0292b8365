(* A UV data set on disk and what an interrupted writer leaves of it:
   aipy/_miriad/mir/uvio.c uvopen_c 706-765, uvclose_c 837-874, uvflush_c 876-935,
   uv_vartable_out 1115-1134, uv_vartable_in 1192-1220; headio.c wrhdl_c 248-281,
   rdhdl_c 405-464; hio.c hflush_c 248-320, hio_c 844-1117, hcache_create_c 1270-1280.
   The stream itself is UvModel, the items of the data set TreeModel. The process may stop
   between any two changes of the directory. A change is one system call; the stream may
   have any length then, and a buffer of another item (at most 16384 bytes) is written whole or
   not at all. *)
From Verif Require Import Base PackModel TreeModel.
From Coq Require Import String Ascii.
From Verif Require Import UvModel HdrModel.
Open Scope Z_scope.
Local Notation length := List.length.

Definition VISDATA := codes "visdata".
Definition VARTABLE := codes "vartable".
Definition VISLEN := codes "vislen".

(* uvio.c:937-960 type_flag, uv_init *)
Definition tychar (t : ty) : Z :=
  match t with TByte => 97 | TInt => 105 | TInt2 => 106 | TReal => 114 | TDble => 100 | TCmplx => 99 end.

(* uvio.c:1115-1134: sprintf "%c %s"; hwritea_c turns the final NUL into a newline (hio.c:1072-1074) *)
Definition vt_line (v : wvar) : list Z := (tychar (w_ty v) :: 32 :: codes (w_name v) ++ [10])%list.
Definition vt_out (vs : list wvar) : list Z := flat_map vt_line vs.

(* hreada_c until the end of the item (hio.c:1091-1101): a last line may lack its newline.
   Lines longer than 128 characters are not split here. *)
Fixpoint lines (cur : list Z) (l : list Z) : list (list Z) :=
  match l with
  | [] => match cur with [] => [] | _ => [rev cur] end
  | c :: r => if c =? 10 then rev cur :: lines [] r else lines (c :: cur) r
  end.

(* isspace in the C locale, or the end of the string *)
Definition blank (c : Z) : bool := (c =? 32) || ((9 <=? c) && (c <=? 13)).
Fixpoint skip_blank (l : list Z) : list Z :=
  match l with c :: r => if blank c then skip_blank r else l | [] => [] end.
Fixpoint word (l : list Z) : list Z :=
  match l with c :: r => if blank c || (c =? 0) then [] else c :: word r | [] => [] end.

Definition ty_of (c : Z) : option ty :=
  if c =? 97 then Some TByte else if c =? 105 then Some TInt else if c =? 106 then Some TInt2
  else if c =? 114 then Some TReal else if c =? 100 then Some TDble else if c =? 99 then Some TCmplx
  else None.

Definition uncodes (l : list Z) : string := string_of_list_ascii (map (fun z => ascii_of_N (Z.to_N z)) l).

(* uvio.c:1206-1216: sscanf "%c %s", the type, uv_mkvar (1222-1257). An empty line or one
   without a name leaves the C variables as they were; that is Err here. *)
Definition vt_var (vs : list rvar) (line : list Z) : res (list rvar) :=
  match line with
  | [] => Err
  | c :: r =>
    match word (skip_blank r), ty_of c with
    | [], _ | _, None => Err
    | nm, Some t =>
      match find_name v_name (uncodes nm) vs with
      | Some _ => Ok vs
      | None => if (8 <? length nm)%nat then Err else Ok (vs ++ [RV (uncodes nm) t 0 None 0])%list
      end
    end
  end.

Fixpoint vt_vars (vs : list rvar) (ls : list (list Z)) : res (list rvar) :=
  match ls with [] => Ok vs | l :: r => bind (vt_var vs l) (fun vs' => vt_vars vs' r) end.
Definition vt_in (text : list Z) : res (list rvar) := vt_vars [] (lines [] text).

(* headio.c:276-280: the tag, 4 bytes that are never written (gap), the value *)
Definition int8_item : list Z := [0; 0; 0; 8].
Definition int_item : list Z := [0; 0; 0; 2].
Definition wrhdl (gap : list Z) (v : Z) : list Z :=
  (int8_item ++ gap ++ match pack64_c 1 (le_bytes 8 v) with Ok b => b | Err => [] end)%list.

(* headio.c:430-464, the item being there; def is the default value *)
Definition rdhdl (d : list Z) (def : Z) : res Z :=
  if TreeModel.zlen d <? 4 then Err else
  if name_eqb (firstn 4 d) int8_item then
    if TreeModel.zlen d =? 16 then
      bind (unpack64_c 1 (skipn 8 d)) (fun m => Ok (hd 0 (read_signed 8 1 m)))
    else Ok def
  else if name_eqb (firstn 4 d) int_item then
    if TreeModel.zlen d =? 8 then
      bind (unpack32_c 1 (skipn 4 d)) (fun m => Ok (hd 0 (read_signed 4 1 m)))
    else Ok def
  else Err.

(* the directory of a data set: the file "header", if it is there, and the other files *)
Record disk := Disk { k_header : option ((Z -> Z) * Z); k_files : list (name * list Z) }.

Definition file_of (d : list Z) : file := Fl (TreeModel.zlen d) (fun p => nth (Z.to_nat p) d 0).

(* uvio.c:736-761 uvopen_c "old" with hopen_c "old"; fl: the item "flags" (C09). No item
   other than the ones here shares its name with a variable (uv_override). *)
Definition uv_open_disk (junk : Z -> Z) (k : disk) (fl : list bool) : res reader :=
  match k_header k with
  | None => Err
  | Some (f, n) =>
    match t_open junk f n (k_files k) with
    | None => Err
    | Some t =>
      match snd (t_get VISDATA t) with
      | None => Err
      | Some vis =>
        bind (match snd (t_get VISLEN t) with
              | None => Ok (TreeModel.zlen vis)
              | Some d => rdhdl d (TreeModel.zlen vis) end) (fun mx =>
        match snd (t_get VARTABLE t) with
        | None => Err
        | Some vt => bind (vt_in vt) (fun vs => Ok (Rd vs 0 (file_of vis) mx 0 0 fl 0 false))
        end)
      end
    end
  end.

(* changes of the directory: "header" gets these contents; another file does *)
Inductive eff := FHeader (f : Z -> Z) (n : Z) | FFile (n : name) (d : list Z).

Definition apply_eff (k : disk) (e : eff) : disk :=
  match e with
  | FHeader f n => Disk (Some (f, n)) (k_files k)
  | FFile n d => Disk (k_header k) ((n, d) :: file_drop n (k_files k))
  end.
Definition run_effs (k : disk) (l : list eff) : disk := fold_left apply_eff l k.

(* the bytes of the stream *)
Definition stream (w : writer) : list Z :=
  map (fun k => f_at (w_file w) (Z.of_nat k)) (seq 0 (Z.to_nat (f_size (w_file w)))).

Definition sets (l : list (name * list Z)) (t : tree) : tree :=
  fold_left (fun t x => t_set (fst x) (snd x) t) l t.

(* The items when uvclose_c calls hflush_c: early, those assigned before (header items, flags);
   the variable table; late, obstype, nwcorr, ncorr; the length of the stream; the
   stream. *)
Definition at_close (junk : Z -> Z) (gap : list Z) (w : writer) (early late : list (name * list Z)) : tree :=
  t_set VISDATA (stream w) (t_set VISLEN (wrhdl gap (w_off w))
    (sets late (t_set VARTABLE (vt_out (w_vars w)) (sets early (t_new junk))))).

(* an item other than those three is written, or the stream reaches the disk up to some byte *)
Definition other_eff (w : writer) (e : eff) : Prop :=
  match e with
  | FFile n d => n <> VARTABLE /\ n <> VISLEN /\
                 (n = VISDATA -> exists c, d = firstn c (stream w))
  | FHeader _ _ => False
  end.

(* hio.c:1161-1171: beyond 64 bytes the item gets a file: created, then written by hdaccess_c *)
Definition vt_effs (w : writer) : list eff :=
  let vt := vt_out (w_vars w) in
  if TreeModel.zlen vt <=? HioModel.CACHESIZE then [] else [FFile VARTABLE []; FFile VARTABLE vt].

(* All changes of the directory, in order, from uvopen_c "new" to the end of uvclose_c. The
   file "header" is created empty (hcache_create_c). Before the table of variables other
   items and parts of the stream may be written; the table; then others again, the whole
   stream at the latest by hflush_c, which in the end writes "header" (truncate, then
   write). The files then are those TreeModel has. *)
Definition session (junk : Z -> Z) (gap : list Z) (w : writer) (early late : list (name * list Z))
    (tr : list eff) : Prop :=
  exists body1 body2 t,
    Forall (other_eff w) body1 /\ Forall (other_eff w) body2 /\
    t_flush junk (at_close junk gap w early late) = Some t /\
    (forall n, file_find n (k_files (run_effs (Disk None []) (body1 ++ vt_effs w ++ body2))) = file_find n (t_files t)) /\
    tr = (FHeader junk 0 :: body1 ++ vt_effs w ++ body2 ++ [FHeader (t_hfile t) 0; FHeader (t_hfile t) (t_hsize t)])%list.
