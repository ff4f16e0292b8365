(* Sources and where they come from: fluxes (aipy/amp.py:21-36, 84-112, aipy/_src/helm.py:14-23),
   the catalogue files (aipy/_src/*.py fromfile) and the catalogue a module keeps (get_srcs of
   aipy/_src/*.py). A Python string is a list of 8-bit characters. What float() makes of one is
   a parameter, None a ValueError. Simplifications: fluxes and frequencies are exact reals, and
   a power is taken of positive numbers only (Rpower); positions stay strings, as given to ephem;
   a file is the list of its lines, each with its newline. *)
From Coq Require Import Reals Ascii String.
From Verif Require Import Base CleanModel ParamModel ScriptModel CatModel.
Local Open Scope R_scope.
Local Notation length := List.length.

(* ---- fluxes ---- *)
(* the index of HelmboldtFixedBody is a number or a sequence; that of the other classes a number *)
Inductive index := Num (i : R) | Lst (l : list R).
Inductive spectrum := Law (i : R) | Helm (i : index).
(* _jys is None where the Culgoora catalogue had no measurement *)
Record body := Body { b_name : str; b_ra : str; b_dec : str; b_jys : option R; b_spec : spectrum; b_mfreq : R }.
Definition log10 (x : R) : R := ln x / ln 10.
(* helm.py:19-20 *)
Definition bcd (i : index) : R * R * R :=
  match i with
  | Num b => (b, 0, 0)
  | Lst l => (nth 0 (l ++ [0; 0; 0]) 0, nth 1 (l ++ [0; 0; 0]) 0, nth 2 (l ++ [0; 0; 0]) 0)
  end.
(* one element of jys: amp.py:34, helm.py:18-23. Err: arithmetic with None; Ok None: not a number *)
Definition flux (b : body) (f : R) : res (option R) :=
  match b_jys b with
  | None => Err
  | Some j =>
    match b_spec b with
    | Law i => Ok (Some (j * Rpower (f / b_mfreq b) i))
    | Helm i =>
      let '(B, C, D) := bcd i in let X := log10 (f / b_mfreq b) in
      if Rlt_dec 0 j then Ok (Some (Rpower 10 (log10 j + B * X + C * exp (D * X))))
      else if Req_EM_T j 0 then Ok (Some 0) else Ok None
    end
  end.
Definition fluxes (b : body) (afreqs : list R) : res (list (option R)) := map_res (flux b) afreqs.

(* ---- a heap of source objects: the body, and jys and afreqs where set ---- *)
Record obj := Obj { o_body : body; o_jys : option (list (option R)); o_afreqs : option (list R) }.
Definition heap := list obj.
Fixpoint hset (h : heap) (i : nat) (o : obj) : heap :=
  match h, i with
  | [], _ => []
  | _ :: r, O => o :: r
  | x :: r, S i => x :: hset r i o
  end.
(* update_jys of one object; a Helmboldt source does not remember the frequencies *)
Definition update_one (h : heap) (i : nat) (afreqs : list R) : res heap :=
  match nth_error h i with
  | None => Err
  | Some o =>
    bind (fluxes (o_body o) afreqs) (fun v =>
      Ok (hset h i (Obj (o_body o) (Some v) (match b_spec (o_body o) with Law _ => Some afreqs | Helm _ => o_afreqs o end))))
  end.
Fixpoint update_refs (h : heap) (l : list nat) (afreqs : list R) : res heap :=
  match l with
  | [] => Ok h
  | i :: r => bind (update_one h i afreqs) (fun h => update_refs h r afreqs)
  end.
(* amp.py:111-112 SrcCatalog.update_jys, amp.py:107-110 get_jys; a source without jys: AttributeError *)
Definition cat_update (h : heap) (c : dict nat) (afreqs : list R) : res heap := update_refs h (map snd c) afreqs.
Definition obj_jys (h : heap) (i : nat) : res (list (option R)) :=
  match nth_error h i with Some o => match o_jys o with Some v => Ok v | None => Err end | None => Err end.
Definition cat_jys (h : heap) (c : dict nat) (srcs : option (list string)) : res (list (list (option R))) :=
  map_res (fun n => match lookup n c with Some i => obj_jys h i | None => Err end)
          (match srcs with Some l => l | None => keys c end).
(* amp.py:60-70 RadioFixedBody.__str__: whether it returns a string *)
Definition str_ok (h : heap) (i : nat) : bool :=
  match nth_error h i with Some o => match o_afreqs o with Some (_ :: _) => true | _ => false end | None => false end.
(* the lines of get_srcs after loading (_src/misc.py:51-64 and the others alike): with a cutoff every
   source of the module is updated at that one frequency *)
Definition above (cut : R) (v : list (option R)) : bool :=
  match v with Some x :: _ => Rltb cut x | _ => false end.
Definition module_refs (h : heap) (m : dict nat) (srcs : option (list string)) (cutoff : option (R * R)) : res (heap * list nat) :=
  let look names := flat_map (fun n => match lookup n m with Some i => [i] | None => [] end) names in
  match srcs, cutoff with
  | Some l, _ => Ok (h, look l)
  | None, None => Ok (h, look (keys m))
  | None, Some (cut, fq) =>
    bind (cat_update h m [fq]) (fun h =>
      bind (map_res (fun n => bind (match lookup n m with Some i => obj_jys h i | None => Err end)
                                   (fun v => Ok (n, above cut v))) (keys m))
           (fun l => Ok (h, look (map fst (filter snd l)))))
  end.

(* ---- catalogue files ---- *)
Section Files.
Variable num : str -> option R.
Definition tab : ascii := "009"%char.
Definition float (s : str) : res R := match num s with Some x => Ok x | None => Err end.
Definition colons (s : str) : str := map (fun c => if ceqb c " "%char then ":"%char else c) s.
Definition col (text : list str) (i : nat) : res str := match nth_error text i with Some s => Ok s | None => Err end.
(* int(s[0]) of a string: IndexError when empty, ValueError when not a digit *)
Definition starts_digit (s : str) : res bool := match s with c :: _ => Ok (is_digit c) | [] => Err end.
(* the loop shared by the tab-separated catalogues: a short line and a line that does not begin
   with a digit are passed over; comments are taken out before *)
Definition data_lines (lines : list str) : list str := filter (fun L => negb (starts (lit "#") L)) lines.
Fixpoint tsv (short : nat) (front : str -> str) (row : list str -> res (list body)) (lines : list str) : res (list body) :=
  match lines with
  | [] => Ok []
  | L :: r =>
      let text := split tab L in
      if (length text <=? short)%nat then tsv short front row r
      else bind (bind (col text 0) (fun t => starts_digit (front t))) (fun d =>
           if negb d then tsv short front row r
           else bind (row text) (fun b => bind (tsv short front row r) (fun l => Ok (b ++ l))))
  end.
(* name, position and flux density columns, the divisor of the flux column, frequency. No name
   column: the name is made of the position *)
Record layout := Layout { l_ra : nat; l_dec : nat; l_name : option nat; l_jys : nat; l_unit : R; l_mfreq : R }.
Definition row (l : layout) (text : list str) : res (list body) :=
  bind (col text (l_ra l)) (fun ra => bind (col text (l_dec l)) (fun dec =>
  bind (match l_name l with Some k => bind (col text k) (fun n => Ok (strip n)) | None => Ok (colons ra ++ lit "_" ++ colons dec) end) (fun name =>
  bind (col text (l_jys l)) (fun t => bind (float t) (fun j =>
    Ok [Body name (colons ra) (colons dec) (Some (j / l_unit l)) (Law 0) (l_mfreq l)]))))).
Definition id_str (s : str) := s.
Definition vizier (l : layout) (lines : list str) := tsv 4 id_str (row l) (data_lines lines).
Definition three_c := vizier (Layout 0 1 (Some 2%nat) 9 1 (159 / 1000)).        (* three_c.py:22-36 *)
Definition three_cr := vizier (Layout 0 1 (Some 2%nat) 7 1 (178 / 1000)).       (* three_cr.py:22-36 *)
Definition four_c := vizier (Layout 0 1 (Some 2%nat) 5 1 (178 / 1000)).         (* four_c.py:22-36 *)
Definition gbsix := vizier (Layout 0 1 (Some 18%nat) 8 1000 (485 / 100)).       (* gbsix.py:21-35 *)
Definition nvss := vizier (Layout 3 4 (Some 2%nat) 7 1000 (140 / 100)).         (* nvss.py:22-36 *)
Definition vlss := vizier (Layout 3 4 (Some 2%nat) 5 1 (74 / 1000)).            (* vlss.py:22-36 *)
Definition wenss := vizier (Layout 4 5 (Some 2%nat) 9 1000 (330 / 1000)).       (* wenss.py:22-36 *)
Definition six_c := vizier (Layout 0 1 None 4 1 (151 / 1000)).                  (* six_c.py:23-37 *)
(* seven_c.py:22-36: L.strip('\n') first *)
Definition lf : ascii := "010"%char.
Fixpoint skip_lf (s : str) : str := match s with c :: r => if ceqb c lf then skip_lf r else s | [] => [] end.
Definition strip_lf (s : str) : str := rev (skip_lf (rev (skip_lf s))).
Definition seven_c (lines : list str) :=
  tsv 4 id_str (row (Layout 0 1 None 5 1 (151 / 1000))) (map strip_lf (data_lines lines)).
(* parkes.py:22-37: a row whose flux is no number is passed over *)
Definition parkes (lines : list str) := tsv 4 id_str (fun text =>
  bind (col text 11) (fun n => bind (col text 9) (fun t =>
    match num t with
    | None => Ok []
    | Some j => bind (col text 0) (fun ra => bind (col text 1) (fun dec =>
        Ok [Body (strip n) (colons ra) (colons dec) (Some j) (Law 0) (270 / 100)]))
    end))) (data_lines lines).
(* txs.py:22-38: with a spectral index, or 0 *)
Definition txs (lines : list str) := tsv 4 id_str (fun text =>
  bind (col text 0) (fun ra => bind (col text 1) (fun dec => bind (col text 2) (fun n =>
  bind (col text 7) (fun t => bind (float t) (fun j => bind (col text 10) (fun it =>
    Ok [Body (strip n) (colons ra) (colons dec) (Some j) (Law (match num it with Some i => i | None => 0 end)) (365 / 1000)]))))))) (data_lines lines).
(* paper.py:14-29: colons already there; more than three columns *)
Definition paper (lines : list str) := tsv 3 strip (fun text =>
  bind (col text 1) (fun ra => bind (col text 2) (fun dec => bind (col text 3) (fun n =>
  bind (col text 4) (fun t => bind (float t) (fun j =>
    Ok [Body (strip n) ra dec (Some j) (Law 0) (150 / 1000)])))))) (data_lines lines).
(* culgoora.py:30-65 *)
Definition culgoora (lines : list str) := tsv 4 id_str (fun text =>
  bind (col text 0) (fun ra => bind (col text 1) (fun dec => bind (col text 2) (fun n =>
  bind (col text 7) (fun t160 => bind (col text 9) (fun t080 => bind (col text 10) (fun ti =>
    let j160 := num t160 in let j080 := num t080 in let i := num ti in
    bind (col text 6) (fun f160 => bind (col text 8) (fun f080 =>
    let both := match i, j080, j160 with None, Some _, Some _ => true | _, _, _ => false end in
    let j160 := if both && starts (lit "<") f160 then None else j160 in
    let j080 := if both && starts (lit "<") f080 then None else j080 in
    let b := Body (strip n) (colons ra) (colons dec) in
    Ok [match i with
        | Some i => b j160 (Law i) (160 / 1000)
        | None => match j160 with Some _ => b j160 (Law 0) (160 / 1000) | None => b j080 (Law 0) (80 / 1000) end
        end]))))))))) (data_lines lines).
(* s.split() *)
Fixpoint pieces (s : str) : list str :=
  match s with
  | [] => [[]]
  | x :: r => if is_space x then [] :: pieces r
              else match pieces r with h :: t => (x :: h) :: t | [] => [[x]] end
  end.
Definition words (s : str) : list str := filter (fun w => match w with [] => false | _ => true end) (pieces s).
(* mrt.py:15-22: four lines of heading, then rows of at least four words *)
Definition mrt (lines : list str) : res (list body) :=
  map_res (fun L => match words L with
    | s :: ra :: dec :: j :: _ => bind (float j) (fun j => Ok (Body s ra dec (Some j) (Law 0) (150 / 1000)))
    | _ => Err end) (skipn 4 lines).

(* ---- helm.py:65-105: fixed columns; s[a:b] ---- *)
Definition cut (s : str) (a b : nat) : str := firstn (b - a) (skipn a s).
Definition key (L : str) : string := string_of_list_ascii (cut L 0 9).
Definition is_J (L : str) : bool := starts (lit "J") L.
Definition of_str (s : string) : str := list_ascii_of_string s.
(* what the class keeps: measurements, rms of the fit, number of components *)
Record meta := Meta { m_data : dict (list (R * R * R)); m_rms : dict R; m_ncomp : dict Z }.
Fixpoint pos_lines (lines : list str) (srcs : dict str) (m : meta) : res (dict str * meta) :=
  match lines with
  | [] => Ok (srcs, m)
  | L :: r =>
    if negb (is_J L) then pos_lines r srcs m
    else
      let k := key L in
      bind (match lookup k (m_ncomp m) with
            | Some _ => Ok (m_ncomp m)
            | None => match nth_error L 33 with
                      | Some c => bind (py_int [c]) (fun n => Ok (dset k n (m_ncomp m)))
                      | None => Err end
            end) (fun nc =>
      bind (float (cut L 58 64)) (fun f => bind (float (cut L 65 73)) (fun s => bind (float (cut L 74 81)) (fun e =>
        let old := match lookup k (m_data m) with Some l => l | None => [] end in
        pos_lines r (dset k (cut L 35 57) srcs) (Meta (dset k (old ++ [(f / 1000, s, e)]) (m_data m)) (m_rms m) nc)))))
  end.
(* a source of posfile with the fits found for it *)
Fixpoint fit_lines (lines : list str) (srcs : dict (str * list (list R))) (m : meta) : res (dict (str * list (list R)) * meta) :=
  match lines with
  | [] => Ok (srcs, m)
  | L :: r =>
    if negb (is_J L) then fit_lines r srcs m
    else
      let k := key L in
      bind (map_res float (words (cut L 13 62))) (fun spec =>
        match lookup k srcs with
        | None => Err
        | Some (p, fits) =>
          let rms := match num (cut L 63 70) with Some x => x | None => -1 end in
          fit_lines r (dset k (p, fits ++ [spec]) srcs) (Meta (m_data m) (dset k rms (m_rms m)) (m_ncomp m))
        end)
  end.
Definition helm_src (e : string * (str * list (list R))) : res body :=
  let '(k, (p, fits)) := e in
  let ra := colons (strip (cut p 0 10)) in
  let dec := colons (strip (skipn 11 p)) in
  match fits with
  | [spec] =>
    match spec with
    | a :: b :: c :: d :: e :: l =>
      if Req_EM_T d (-99) then Ok (Body (of_str k) ra dec (Some a) (Law b) (74 / 1000))
      else Ok (Body (of_str k) ra dec (Some (Rpower 10 d)) (Helm (Lst (e :: l))) (74 / 1000))
    | a :: b :: _ => Ok (Body (of_str k) ra dec (Some a) (Law b) (74 / 1000))
    | [a] => Ok (Body (of_str k) ra dec (Some a) (Law (-99)) (74 / 1000))
    | [] => Err
    end
  | _ => Err
  end.
Definition helm (m : meta) (posfile fitfile : list str) : res (list body * meta) :=
  bind (pos_lines posfile [] m) (fun '(srcs, m) =>
  bind (fit_lines fitfile (map (fun '(k, p) => (k, (p, []))) srcs) m) (fun '(srcs, m) =>
  bind (map_res helm_src srcs) (fun l => Ok (l, m)))).

(* ---- the catalogue of a module: _src/three_c.py:41-46 and the others alike. None: not made yet.
   A file that cannot be opened or read is Err; six_c reads several *)
Definition bname (b : body) : string := string_of_list_ascii (b_name b).
Definition fill (c : dict body) (l : list body) : dict body := fst (add_srcs bname c [Many l]).
Fixpoint load (c : dict body) (files : list (res (list body))) : dict body * bool :=
  match files with
  | [] => (c, true)
  | Err :: _ => (c, false)
  | Ok l :: r => load (fill c l) r
  end.
Definition get_module (st : option (dict body)) (files : list (res (list body))) : option (dict body) * res (dict body) :=
  match st with
  | Some c => (st, Ok c)
  | None => let '(c, ok) := load [] files in (Some c, if ok then Ok c else Err)
  end.
End Files.
