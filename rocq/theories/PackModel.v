(* Byte codecs of the MIRIAD file format, little-endian host branch.
   Memory is a list of bytes (Z in 0..255). A read beyond the memory is Err. *)
From Verif Require Import Base.

Definition byte := Z.

(* Host representation: k least significant bytes first (x86-64). *)
Fixpoint le_bytes (k : nat) (v : Z) : list byte :=
  match k with
  | O => []
  | S k' => v mod 256 :: le_bytes k' (v / 256)
  end.

(* Unsigned value of a little-endian byte string. *)
Fixpoint le_val (bs : list byte) : Z :=
  match bs with
  | [] => 0
  | b :: r => b + 256 * le_val r
  end.

(* Two's complement reading of a w-bit pattern. *)
Definition signed (w v : Z) : Z := if v <? 2 ^ (w - 1) then v else v - 2 ^ w.

(* aipy/_miriad/mir/pack.c:94-108  pack16_c: takes bytes 1,0 of each int *)
Fixpoint pack16_c (n : nat) (s : list byte) : res (list byte) :=
  match n with
  | O => Ok []
  | S n' => match s with
            | s0 :: s1 :: _ :: _ :: s' => bind (pack16_c n' s') (fun o => Ok (s1 :: s0 :: o))
            | _ => Err
            end
  end.

(* aipy/_miriad/mir/pack.c:110-131  unpack16_c: swaps and sign extends on 0x80 *)
Fixpoint unpack16_c (n : nat) (inp : list byte) : res (list byte) :=
  match n with
  | O => Ok []
  | S n' => match inp with
            | i0 :: i1 :: inp' =>
                let ext := if Z.land 128 i0 =? 0 then 0 else 255 in
                bind (unpack16_c n' inp') (fun o => Ok (i1 :: i0 :: ext :: ext :: o))
            | _ => Err
            end
  end.

(* aipy/_miriad/mir/pack.c:133-149 pack32_c, 151-167 unpack32_c,
   213-229 packr_c, 231-247 unpackr_c: the same 4-byte reversal *)
Fixpoint rev4 (n : nat) (s : list byte) : res (list byte) :=
  match n with
  | O => Ok []
  | S n' => match s with
            | s0 :: s1 :: s2 :: s3 :: s' =>
                bind (rev4 n' s') (fun o => Ok (s3 :: s2 :: s1 :: s0 :: o))
            | _ => Err
            end
  end.
Definition pack32_c := rev4.
Definition unpack32_c := rev4.
Definition packr_c := rev4.
Definition unpackr_c := rev4.

(* aipy/_miriad/mir/pack.c:169-189 pack64_c, 191-211 unpack64_c,
   249-270 packd_c, 272-293 unpackd_c: the same 8-byte reversal *)
Fixpoint rev8 (n : nat) (s : list byte) : res (list byte) :=
  match n with
  | O => Ok []
  | S n' => match s with
            | s0 :: s1 :: s2 :: s3 :: s4 :: s5 :: s6 :: s7 :: s' =>
                bind (rev8 n' s') (fun o =>
                  Ok (s7 :: s6 :: s5 :: s4 :: s3 :: s2 :: s1 :: s0 :: o))
            | _ => Err
            end
  end.
Definition pack64_c := rev8.
Definition unpack64_c := rev8.
Definition packd_c := rev8.
Definition unpackd_c := rev8.

(* A C array of w-byte numbers in host memory. *)
Definition array_mem (w : nat) (vs : list Z) : list byte := concat (map (le_bytes w) vs).

(* Reading a C array of n signed w-byte numbers from host memory. *)
Fixpoint read_signed (w n : nat) (m : list byte) : list Z :=
  match n with
  | O => []
  | S n' => signed (8 * Z.of_nat w) (le_val (firstn w m)) :: read_signed w n' (skipn w m)
  end.
