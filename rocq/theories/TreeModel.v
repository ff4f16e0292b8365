(* The items of a data set: hio.c hopen_c 155-204, hclose_c 431-478, hflush_c
   248-320, haccess_c 544-650, hdaccess_c 758-819, hdelete_c 480-542, hexists_c
   702-757, hcache_read_c 1282-1314, hcreate_item_c 1438-1483.
   Small items (at most 64 bytes) stay in memory and are written together to the file
   "header" on close. The bytes of one open item are a list (its buffering is
   HioModel / C05); the file "header" is read and written through
   HioModel. Simplified: one item is open at a time; write permission checks
   and the hash table of item handles are left out. *)
From Verif Require Import Base HioModel.

Definition name := list Z.

Fixpoint name_eqb (a b : name) : bool :=   (* strcmp(a,b) == 0 *)
  match a, b with
  | [], [] => true
  | x :: a', y :: b' => (x =? y) && name_eqb a' b'
  | _, _ => false
  end.

(* ITEM, hio.c:84-95, when it is not open: e_cache = ITEM_CACHE flag *)
Record entry := Entry { e_name : name; e_data : list Z; e_cache : bool }.

(* TREE, hio.c:97-103, with the directory it stands for *)
Record tree := Tree {
  t_items : list entry;                (* itemlist *)
  t_mod : bool;                        (* TREE_CACHEMOD *)
  t_hfile : Z -> Z; t_hsize : Z;       (* the file "header" *)
  t_files : list (name * list Z) }.    (* the other files of the directory *)

Definition find (n : name) (l : list entry) : option entry :=
  List.find (fun e => name_eqb n (e_name e)) l.

Definition release (n : name) (l : list entry) : list entry := (* hrelease_item_c, 1406-1436 *)
  filter (fun e => negb (name_eqb n (e_name e))) l.

Definition file_find (n : name) (fs : list (name * list Z)) : option (list Z) :=
  option_map snd (List.find (fun f => name_eqb n (fst f)) fs).

Definition file_drop (n : name) (fs : list (name * list Z)) : list (name * list Z) :=
  filter (fun f => negb (name_eqb n (fst f))) fs.

Definition zlen (l : list Z) : Z := Z.of_nat (length l).

(* hio.c:582-584: "history" always has a file of its own *)
Definition HISTORY : name := [104; 105; 115; 116; 111; 114; 121].
Definition nocache (n : name) : bool := name_eqb n HISTORY.

(* haccess_c "write", writing data (nothing if empty), hdaccess_c. An item "history" in the
   common header (never written by this library) is not considered. *)
Definition t_set (n : name) (data : list Z) (t : tree) : tree :=
  if nocache n then Tree (t_items t) (t_mod t) (t_hfile t) (t_hsize t) ((n, data) :: file_drop n (t_files t)) else
  let '(items1, mod1, cached) :=
    match find n (t_items t) with
    | None => (Entry n [] false :: t_items t, t_mod t, false)
    | Some e =>
        (map (fun x => if name_eqb n (e_name x) then Entry (e_name x) [] (e_cache x) else x) (t_items t),
         t_mod t || (negb (zlen (e_data e) =? 0) && e_cache e), e_cache e)
    end in
  if zlen data =? 0 then
    Tree items1 mod1 (t_hfile t) (t_hsize t) (t_files t)
  else if zlen data <=? CACHESIZE then
    Tree (map (fun x => if name_eqb n (e_name x) then Entry (e_name x) data (e_cache x) else x) items1)
         true (t_hfile t) (t_hsize t) (t_files t)
  else (* hcheckbuf_c 1161-1171: gets a file; hdaccess_c releases the item *)
    Tree (release n items1) (mod1 || cached) (t_hfile t) (t_hsize t) ((n, data) :: file_drop n (t_files t)).

(* haccess_c "read", reading everything, hdaccess_c *)
Definition t_get (n : name) (t : tree) : tree * option (list Z) :=
  match find n (t_items t) with
  | Some e =>
      if (zlen (e_data e) =? 0) && negb (e_cache e)
      then (Tree (release n (t_items t)) (t_mod t) (t_hfile t) (t_hsize t) (t_files t), file_find n (t_files t))
      else (t, Some (e_data e))
  | None => (t, file_find n (t_files t))
  end.

(* hdelete_c; the boolean is iostat == 0 *)
Definition t_delete (n : name) (t : tree) : tree * bool :=
  match find n (t_items t) with
  | Some e => (Tree (release n (t_items t)) (t_mod t || e_cache e) (t_hfile t) (t_hsize t)
                    (file_drop n (t_files t)), true)
  | None => (Tree (t_items t) (t_mod t) (t_hfile t) (t_hsize t) (file_drop n (t_files t)),
             match file_find n (t_files t) with Some _ => true | None => false end)
  end.

(* hexists_c *)
Definition t_exists (n : name) (t : tree) : bool :=
  match find n (t_items t) with
  | Some _ => true
  | None => match file_find n (t_files t) with Some _ => true | None => false end
  end.

(* hio.c:299-300: Strcpy(s,item->name); s[15] = item->size; s is not cleared
   between items *)
Definition CACHE_ENT : Z := 16.
Definition fill_ent (s : list Z) (n : name) (size : Z) : list Z :=
  firstn 15 (n ++ 0 :: skipn (S (length n)) s) ++ [size].

Definition mroundup (a b : Z) : Z := b * ((a + b - 1) / b).   (* hio.h:46 *)

(* hio.c:297-312, the loop that writes the cache *)
Fixpoint write_cache (junk : Z -> Z) (it : item) (s : list Z) (offset : Z) (l : list entry) : option item :=
  match l with
  | [] => Some it
  | e :: r =>
      let size := zlen (e_data e) in
      let s1 := fill_ent s (e_name e) size in
      match hio_write junk it 1 offset s1 with
      | None => None
      | Some it1 =>
          match (if 0 <? size then hio_write junk it1 1 (offset + CACHE_ENT) (e_data e) else Some it1) with
          | None => None
          | Some it2 => write_cache junk it2 s1 (offset + CACHE_ENT + mroundup size CACHE_ENT) r
          end
      end
  end.

(* hio.c:248-320; the item "header" is opened for writing, so truncated *)
Definition t_flush (junk : Z -> Z) (t : tree) : option tree :=
  if t_mod t then
    match write_cache junk (file_item junk (t_hfile t) 0) (repeat 0 16) 0 (t_items t) with
    | None => None
    | Some it =>
        match hreopen junk it with
        | None => None
        | Some f => Some (Tree (map (fun e => Entry (e_name e) (e_data e) true) (t_items t)) false
                               (i_file f) (i_fsize f) (t_files t))
        end
    end
  else Some t.

(* the C string at the start of s; None: no NUL in the 16 bytes *)
Fixpoint cstring (s : list Z) : option name :=
  match s with
  | [] => None
  | c :: r => if c =? 0 then Some [] else option_map (cons c) (cstring r)
  end.

(* hio.c:1294-1312, the loop that loads the cache; None: fatal error or out of fuel *)
Fixpoint read_cache (fuel : nat) (junk : Z -> Z) (it : item) (offset : Z) (acc : list entry)
  : option (list entry) :=
  match fuel with
  | O => None
  | S f =>
      match hio_read junk it 1 offset CACHE_ENT with
      | (_, HEof) => Some acc
      | (it1, HBytes s) =>
          let size0 := nth 15 s 0 in
          let size := if size0 <? 128 then size0 else size0 - 256 in  (* char *)
          match cstring s with
          | None => None
          | Some n =>
              if size <? 0 then None else
              match hio_read junk it1 1 (offset + CACHE_ENT) size with
              | (it2, HBytes d) =>
                  read_cache f junk it2 (offset + CACHE_ENT + mroundup size CACHE_ENT) (Entry n d true :: acc)
              | _ => None
              end
          end
      | _ => None
      end
  end.

(* hopen_c "old", hio.c:186-188 *)
Definition t_open (junk : Z -> Z) (hfile : Z -> Z) (hsize : Z) (files : list (name * list Z)) : option tree :=
  match read_cache (S (Z.to_nat hsize)) junk (file_item junk hfile hsize) 0 [] with
  | None => None
  | Some l => Some (Tree l false hfile hsize files)
  end.

(* hopen_c "new", hio.c:189-194 *)
Definition t_new (junk : Z -> Z) : tree := Tree [] false junk 0 [].

(* hclose_c then hopen_c "old" *)
Definition t_reopen (junk : Z -> Z) (t : tree) : option tree :=
  match t_flush junk t with
  | None => None
  | Some t1 => t_open junk (t_hfile t1) (t_hsize t1) (t_files t1)
  end.

Inductive top :=
| TSet (n : name) (data : list Z)
| TGet (n : name)
| TDelete (n : name)
| TExists (n : name)
| TFlush (junk : Z -> Z)
| TReopen (junk : Z -> Z).

Inductive tres := TDone | TFail | TBytes (d : list Z) | TBool (b : bool).

Definition t_step (t : tree) (o : top) : tree * tres :=
  match o with
  | TSet n d => (t_set n d t, TDone)
  | TGet n => let '(t', x) := t_get n t in (t', match x with Some d => TBytes d | None => TFail end)
  | TDelete n => let '(t', b) := t_delete n t in (t', if b then TDone else TFail)
  | TExists n => (t, TBool (t_exists n t))
  | TFlush j => match t_flush j t with Some t' => (t', TDone) | None => (t, TFail) end
  | TReopen j => match t_reopen j t with Some t' => (t', TDone) | None => (t, TFail) end
  end.

Fixpoint t_run (t : tree) (ops : list top) : list tres :=
  match ops with
  | [] => []
  | o :: r => let '(t', x) := t_step t o in x :: t_run t' r
  end.
