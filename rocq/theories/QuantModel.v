(* Storage of correlations as scaled 16-bit integers: the H_INT2 branches of uvwrite and uvread,
   aipy/_miriad/mir/uvio.c. A float is a real number of the binary32 format; arithmetic rounds to
   nearest, ties to even, with gradual underflow; a result too large is None. Data that are nan or
   infinite are outside the model. *)
From Coq Require Import Reals.
From Flocq Require Import Core.
From Verif Require Import Base CleanModel PackModel.
Open Scope R_scope.

Definition round32 (x : R) : R := round radix2 (FLT_exp (-149) 24) ZnearestE x.
Definition f32 (x : R) : option R := let r := round32 x in if Rltb (Rabs r) (bpow radix2 128) then Some r else None.
Fixpoint map_opt {A B} (f : A -> option B) (l : list A) : option (list B) :=
  match l with
  | [] => Some []
  | x :: r => match f x, map_opt f r with Some y, Some s => Some (y :: s) | _, _ => None end
  end.
(* uvio.c:2085-2092 *)
Definition maxval (data : list R) : R :=
  let m := fold_left (fun m x => Rmax m (if Rltb x 0 then - x else x)) data 0 in if Req_EM_T m 0 then 1 else m.
(* uvio.c:2093-2100: tscale and the integers; the conversion of a product that is not finite to an
   int is undefined in C: Err *)
Definition quantise (data : list R) : res (R * list Z) :=
  match f32 (maxval data / 32767), f32 (32767 / maxval data) with
  | Some tscale, Some scale =>
    match map_opt (fun x => option_map Ztrunc (f32 (scale * x))) data with Some q => Ok (tscale, q) | None => Err end
  | _, _ => Err
  end.
(* uvio.c:2100 uvputvrj and hio: the bytes stored (pack16), and what a scan makes of them
   (unpack16) *)
Definition store16 (q : list Z) : res (list byte) := pack16_c (length q) (array_mem 4 q).
Definition load16 (n : nat) (d : list byte) : res (list Z) := bind (unpack16_c n d) (fun m => Ok (read_signed 4 n m)).
(* uvio.c:4074-4084: uvread with no planet scaling (plscale 1, and the product with it is exact);
   an infinite product is None *)
Definition restore (tscale : R) (q : list Z) : list (option R) := map (fun v => f32 (tscale * IZR v)) q.
(* a record through the file *)
Definition write_read (data : list R) : res (list (option R)) :=
  bind (quantise data) (fun '(tscale, q) => bind (store16 q) (fun d => bind (load16 (length q) d) (fun q => Ok (restore tscale q)))).
