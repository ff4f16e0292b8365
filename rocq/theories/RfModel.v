(* aipy/miriad.py:306-354 read_files. *)
From Coq Require Import QArith Ascii String.
From Verif Require Import Base SelModel ScriptModel.
Open Scope Z_scope.
Local Notation length := List.length.

(* a data set as read_files uses it: its records (v_num v KPol and KLst are uv['pol'] and uv['lst'] at
   the record) and the variables nants, sdf, sfreq, nchan and inttime, taken to be constant within a
   file. Numbers are exact (doubles in the code). *)
Record file := File { f_recs : list vis; f_nants : Z; f_sdf : Q; f_sfreq : Q; f_nchan : nat; f_inttime : Q }.

(* miriad.py:16-32 str2pol and pol2str *)
Definition pol_table : list (str * Z) :=
  [(lit "I", 1); (lit "Q", 2); (lit "U", 3); (lit "V", 4); (lit "rr", -1); (lit "ll", -2); (lit "rl", -3); (lit "lr", -4);
   (lit "xx", -5); (lit "yy", -6); (lit "xy", -7); (lit "yx", -8)].
Definition pol_of_str (s : str) : res Z :=
  match find (fun x => if list_eq_dec ascii_dec (fst x) s then true else false) pol_table with
  | Some x => Ok (snd x) | None => Err end.
Definition str_of_pol (q : Q) : res str :=
  match find (fun x => Qeq_bool (inject_Z (snd x)) q) pol_table with
  | Some x => Ok (fst x) | None => Err end.

(* miriad.py:73-86 UV(filename): a record is read, IOError if there is none, and the file rewound *)
Definition open (f : file) : res rdr :=
  match snd (uv_read (uv_fresh (f_recs f))) with
  | None => Err
  | Some _ => Ok (uv_rewind (fst (uv_read (uv_fresh (f_recs f)))))
  end.

(* scripting.py:108-130 uv_selector with strings; None is -1 *)
Definition selector_calls (f : file) (antstr polstr : option str) : res (list call) :=
  bind (match polstr with
        | None => Ok None
        | Some p => match map_res pol_of_str (split ","%char p) with Ok l => Ok (Some l) | Err => Err end
        end) (fun pols =>
  match antstr with
  | None => uv_selector None pols
  | Some a => bind (parse_ants a (f_nants f)) (fun l => uv_selector (Some l) pols)
  end).
Fixpoint selects (s : rdr) (l : list call) : res rdr :=
  match l with [] => Ok s | c :: r => bind (uv_select s c) (fun s' => selects s' r) end.

(* dictionaries keyed by (i, j, polarisation), in order of insertion *)
Definition key := (Z * Z * str)%type.
Definition key_eqb (a b : key) : bool :=
  (fst (fst a) =? fst (fst b)) && (snd (fst a) =? snd (fst b)) &&
  (if list_eq_dec ascii_dec (snd a) (snd b) then true else false).
Fixpoint kget {A} (d : list (key * A)) (k : key) : option A :=
  match d with [] => None | (m, x) :: r => if key_eqb m k then Some x else kget r k end.
Fixpoint kset {A} (d : list (key * A)) (k : key) (x : A) : list (key * A) :=
  match d with
  | [] => [(k, x)]
  | (m, y) :: r => if key_eqb m k then (m, x) :: r else (m, y) :: kset r k x
  end.
Definition kpush {A} (d : list (key * list A)) (k : key) (x : A) : list (key * list A) :=
  kset d k (match kget d k with Some l => l | None => [] end ++ [x]).

Record acc := Acc {
  a_times : list Q; a_lsts : list Q;
  a_data : list (key * list (list (Z * Z))); a_flgs : list (key * list (list bool)) }.

Definition last_opt {A} (l : list A) : option A := match rev l with [] => None | x :: _ => Some x end.

(* miriad.py:335-342, the body of the loop over the records *)
Definition take (a : acc) (v : vis) : res acc :=
  let new := match last_opt (a_times a) with None => true | Some t => negb (Qeq_bool t (v_time v)) end in
  let times := if new then a_times a ++ [v_time v] else a_times a in
  let lsts := if new then a_lsts a ++ [v_num v KLst] else a_lsts a in
  bind (str_of_pol (v_num v KPol)) (fun p =>
  let k := (v_i v, v_j v, p) in
  Ok (Acc times lsts (kpush (a_data a) k (v_data v)) (kpush (a_flgs a) k (v_flags v)))).

(* UV.all (miriad.py:226-232): read until IOError *)
Fixpoint read_all (fuel : nat) (s : rdr) (a : acc) : res acc :=
  match fuel with
  | O => Ok a
  | S fuel => match uv_read s with
              | (_, None) => Ok a
              | (s', Some v) => bind (take a v) (fun a' => read_all fuel s' a')
              end
  end.

(* miriad.py:330-342, one file *)
Definition read_file (antstr polstr : option str) (dec phs : Z) (a : acc) (f : file) : res acc :=
  bind (open f) (fun s =>
  bind (selector_calls f antstr polstr) (fun cs =>
  bind (selects s (cs ++ if dec >? 1 then [CDecimate dec phs] else [])) (fun s' =>
  read_all (S (length (f_recs f))) s' a))).
Fixpoint read_each (antstr polstr : option str) (dec phs : Z) (a : acc) (l : list file) : res acc :=
  match l with [] => Ok a | f :: r => bind (read_file antstr polstr dec phs a f) (fun a' => read_each antstr polstr dec phs a' r) end.

(* cal.py:13-14 get_freqs *)
Definition get_freqs (sdf sfreq : Q) (nchan : nat) : list Q :=
  map (fun k => (inject_Z (Z.of_nat k) * sdf + sfreq)%Q) (seq 0 nchan).

Record info := Info { i_times : list Q; i_lsts : list Q; i_freqs : list Q; i_inttime : Q; i_sdf : Q }.

(* the filenames argument: a list, or one string. type(x) == 'str' is never true, so a string is
   iterated over by characters (miriad.py:327) *)
Inductive names := NList (l : list str) | NStr (s : str).
Definition iterated (n : names) : list str :=
  match n with NList l => l | NStr s => map (fun c => [c]) s end.

(* miriad.py:324-354; fs gives the data sets on disk. After no file uv is not bound: UnboundLocalError.
   The conversion of the lists to arrays is left out. The files are opened first here and one by one in
   the code, which makes no difference to the result. *)
Definition read_files (fs : str -> option file) (filenames : names) (antstr polstr : option str) (dec phs : Z)
  : res (info * list (key * list (list (Z * Z))) * list (key * list (list bool))) :=
  bind (map_res (fun n => match fs n with Some f => Ok f | None => Err end) (iterated filenames)) (fun l =>
  bind (read_each antstr polstr dec phs (Acc [] [] [] []) l) (fun a =>
  match last_opt l with
  | None => Err
  | Some f => Ok (Info (a_times a) (a_lsts a) (get_freqs (f_sdf f) (f_sfreq f) (f_nchan f)) (f_inttime f) (f_sdf f),
                  a_data a, a_flgs a)
  end)).
