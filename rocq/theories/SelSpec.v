(* What UV.select and UV.read mean to a user, without tables, sorting or stop limits. *)
From Verif Require Import Base SelModel.
From Coq Require Import QArith Qround.
Open Scope Z_scope.

Definition in_range (lo x hi : Q) : bool := Qle_bool lo x && Qle_bool x hi.
(* the time of day of a Julian date, as a fraction counted from midnight *)
Definition day_fraction (t : Q) : Q := (t - (1 # 2) - inject_Z (Qfloor (t - (1 # 2))))%Q.

(* does the call, with the numbers the user gave, cover record number n? *)
Definition covers (n : Z) (v : vis) (k : kind) (p1 p2 : Q) : bool :=
  match k with
  | KVis => in_range p1 (inject_Z n) p2
  | KTime => in_range p1 (v_time v) p2 || in_range p1 (day_fraction (v_time v)) p2
  | KUvn | KUv => in_range (p1 * p1) (v_num v k) (p2 * p2)       (* squared lengths *)
  | KDazim | KDelev => existsb (fun x => in_range p1 x p2) (v_offs v k)
  | KInc => (n - 1) mod (Qfloor (p1 + (1 # 2))) =? 0             (* every p1-th record *)
  | KPol | KOn => Qeq_bool p1 (v_num v k)
  | KShadow => v_shadow v p2
  | KBin => (Qfloor (p1 + (1 # 2)) <=? qtrunc (v_num v KBin)) && (qtrunc (v_num v KBin) <=? Qfloor (p2 + (1 # 2)))
  | KLst => if Qle_bool p2 p1 then Qle_bool p1 (v_num v KLst) || Qle_bool (v_num v KLst) p2   (* wraps *)
            else in_range p1 (v_num v KLst) p2
  | _ => in_range p1 (v_num v k) p2
  end.

(* antenna calls; -1 stands for every antenna *)
Definition covers_ant (v : vis) (a b : Z) : bool :=
  let has x := (v_i v =? x) || (v_j v =? x) in
  if (a =? -1) && (b =? -1) then true
  else if a =? -1 then has b
  else if b =? -1 then has a
  else ((v_i v =? a) && (v_j v =? b)) || ((v_i v =? b) && (v_j v =? a)).

(* a list of (include?, covered?) verdicts: the last call covering the record decides;
   if none covers it, it is kept exactly when the first call was an exclusion *)
Definition verdict (l : list (bool * bool)) : bool :=
  match l with
  | [] => true
  | (inc0, _) :: _ => fold_left (fun keep (x : bool * bool) => if snd x then fst x else keep) l (negb inc0)
  end.

Definition ant_verdicts (cs : list call) (v : vis) : list (bool * bool) :=
  flat_map (fun c => match c with
    | CAnt a b inc => [(inc, covers_ant v a b)]
    | CAuto inc => [(inc, v_i v =? v_j v)]
    | _ => [] end) cs.
Definition kind_verdicts (k : kind) (cs : list call) (n : Z) (v : vis) : list (bool * bool) :=
  flat_map (fun c => match c with
    | CRange k' p1 p2 inc => if kind_eqb k' k then [(inc, covers n v k p1 p2)] else []
    | _ => [] end) cs.

Definition all_kinds : list kind :=
  [KVis; KTime; KUvn; KPoint; KDra; KDdec; KInc; KRa; KDec; KPol; KOn; KUv; KFreq; KShadow; KBin;
   KHa; KLst; KElev; KDazim; KDelev].

(* the calls in_range two "and"/"or": antennas, and every kind of range, must agree *)
Definition group_keeps (cs : list call) (n : Z) (v : vis) : bool :=
  verdict (ant_verdicts cs v) && forallb (fun k => verdict (kind_verdicts k cs n v)) all_kinds.

(* the selection in force after a history of calls: groups, each with its connective *)
Definition program := list (bool * list call).
Fixpoint to_last (c : call) (p : program) : program :=
  match p with
  | [] => [(true, [c])]
  | [(a, cs)] => [(a, cs ++ [c])]
  | g :: r => g :: to_last c r
  end.
Definition prog_step (p : program) (c : call) : program :=
  match c with
  | CClear => []
  | CAnd => match p with [] => [] | _ => p ++ [(true, [])] end
  | COr => match p with [] => [] | _ => p ++ [(false, [])] end
  | CDecimate _ _ => p
  | _ => to_last c p
  end.
Definition in_force (cs : list call) : program := fold_left prog_step cs [].
(* left to right: "and" conjoins, "or" adds *)
Definition prog_keeps (p : program) (n : Z) (v : vis) : bool :=
  fold_left (fun acc (g : bool * list call) => if fst g then acc && group_keeps (snd g) n v else acc || group_keeps (snd g) n v) p true.

(* decimation in force: keep integrations p, p+n, p+2n, ... *)
Definition dec_in_force (cs : list call) : Z * Z :=
  fold_left (fun d c => match c with CDecimate n p => (n, p) | _ => d end) cs (1, 0).

(* records with their numbers, from 1 *)
Fixpoint numbered (n : Z) (l : list vis) : list (Z * vis) :=
  match l with [] => [] | v :: r => (n, v) :: numbered (n + 1) r end.
Definition kept (p : program) (recs : list vis) : list vis :=
  map snd (filter (fun x => prog_keeps p (fst x) (snd x)) (numbered 1 recs)).

(* integration number of each record: a new integration starts when the time changes *)
Fixpoint integrations (k : Z) (t : Q) (l : list vis) : list (Z * vis) :=
  match l with
  | [] => []
  | v :: r => if Qeq_bool (v_time v) t then (k, v) :: integrations k t r
              else (k + 1, v) :: integrations (k + 1) (v_time v) r
  end.
Definition with_integration (l : list vis) : list (Z * vis) :=
  match l with [] => [] | v :: _ => integrations 0 (v_time v) l end.
Definition decimated (n p : Z) (l : list vis) : list vis :=
  map snd (filter (fun x => (fst x - p) mod n =? 0) (with_integration l)).

(* ---- conditions ---- *)
(* records were written with antennas 0 <= i <= j <= 2046 and real dates *)
Definition rec_ok (v : vis) : Prop := 0 <= v_i v <= v_j v /\ v_j v <= 2046 /\ (1 # 2 <= v_time v)%Q.
(* whole numbers in visibility calls *)
Definition call_ok (c : call) : Prop :=
  match c with
  | CRange KVis p1 p2 _ => exists a b, p1 = inject_Z a /\ p2 = inject_Z b
  | CDecimate n _ => n <> 0
  | _ => True
  end.
(* dazim/delev not combined, in a group, with the kinds numbered 5 to 19 *)
Definition late (k : kind) : bool := 20 <=? code k.
Definition middle (k : kind) : bool := (5 <=? code k) && (code k <=? 19).
Definition has (f : kind -> bool) (cs : list call) : bool :=
  existsb (fun c => match c with CRange k _ _ _ => f k | _ => false end) cs.
Definition group_ok (cs : list call) : Prop := has late cs = false \/ has middle cs = false.
Definition prog_ok (p : program) : Prop := Forall (fun g => group_ok (snd g)) p.

(* the select calls of a session *)
Definition calls (h : list sop) : list call :=
  flat_map (fun o => match o with SSel c => [c] | _ => [] end) h.
(* "visibility" was never used *)
Definition no_vis (cs : list call) : Prop :=
  Forall (fun c => match c with CRange KVis _ _ _ => False | _ => True end) cs.
