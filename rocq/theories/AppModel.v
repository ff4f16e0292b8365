(* Reopening a UV data set to append to it. aipy/_miriad/mir/uvio.c, with the calls
   aipy/_miriad/miriad_wrap.cpp makes when a UV object is created. *)
From Verif Require Import Base.
From Coq Require Import String.
From Verif Require Import UvModel.
Open Scope Z_scope.

(* uvio.c:1043-1053 uv_getuv, 1192-1220 uv_vartable_in: the variables are those of
   the table, with no value and no length *)
Definition reopened (v : wvar) : wvar := WV (w_name v) (w_ty v) 0 None false 0.

Definition wfind (vs : list wvar) (n : string) : option wvar :=
  match find_name w_name n vs with Some i => nth_error vs i | None => None end.

(* uvio.c:2634-2679 uvset_preamble on a data set that is not new, for
   "uvw/time/baseline": coord must exist as doubles; time and baseline, if they
   exist, must be numbers *)
Definition pre_number (vs : list wvar) (n : string) : bool :=
  match wfind vs n with
  | None => true
  | Some v => match w_ty v with TInt | TReal | TDble => true | _ => false end
  end.
Definition preamble_ok (vs : list wvar) : bool :=
  match wfind vs "coord" with
  | Some v => match w_ty v with TDble => true | _ => false end
  | None => false
  end && pre_number vs "time" && pre_number vs "baseline".

(* uvclose_c (837-935, writes vartable, vislen, ncorr), then uvopen_c "append"
   (786-823), then miriad_wrap.cpp:61-64: uvset preamble and uvset corr. The three items
   come back as written (C50). mode: the corrmode given when reopening; uv_mkvar
   (1222-1257) leaves an existing variable as it is. The item obstype is not modelled. *)
Definition uv_append (mode : ty) (w : writer) : res writer :=
  let vs := map reopened (w_vars w) in
  if negb (preamble_ok vs) then Err else
  bind (mkvar vs "corr" mode) (fun p =>
  Ok (Wr (snd p) (mroundup (w_off w) 8) (w_file w) false (w_flags w))).

(* uvwrite_c (2089-2119) goes by the type of the correlation variable *)
Definition corr_ty (w : writer) : ty :=
  match wfind (w_vars w) "corr" with Some v => w_ty v | None => TReal end.

(* a history that goes over several openings *)
Inductive sop := Op (o : uop) | Reopen (mode : ty).

Section Host.
Variable feq8 feq4 : list Z -> list Z -> bool.
Variable add1000 addf1000 : list Z -> list Z.
Variable junk : list Z.

Definition sstep (w : writer) (o : sop) : res writer :=
  match o with
  | Op o => ustep feq8 feq4 add1000 addf1000 junk (corr_ty w) w o
  | Reopen mode => uv_append mode w
  end.

Fixpoint srun (w : writer) (ops : list sop) : res writer :=
  match ops with [] => Ok w | o :: r => bind (sstep w o) (fun w' => srun w' r) end.
End Host.
