(** * Model of ACE::save_binary and ACE::read_binary (src/ace.cpp 189-325), byte by byte *)
From Verif Require Import Base M_Grid M_Ident.
From Flocq Require Import Core IEEE754.BinarySingleNaN IEEE754.Binary IEEE754.Bits.
From Coq Require Import ZArith List. Import ListNotations.
Local Open Scope list_scope.
Local Open Scope Z_scope.

(** A byte is a number 0..255. Integers and doubles are stored little-endian (any fixed byte order would do); a double is held as the
    64 bits of its binary64 representation. *)
Fixpoint le (n : nat) (z : Z) : list Z := match n with O => [] | S m => z mod 256 :: le m (z / 256) end.
Definition of_le (bs : list Z) : Z := fold_right (fun b v => b + 256 * v) 0 bs.
Definition int32_bytes (z : Z) : list Z := le 4 (z mod 2 ^ 32).
Definition int32_of (bs : list Z) : Z := let v := of_le bs in if v <? 2 ^ 31 then v else v - 2 ^ 32.

(** constants.hpp: MEV_TO_EV = 1.E6, EV_TO_K = 1.160451812E4, as bits; their product is computed in double *)
Definition MEV_TO_EV_bits : Z := 4696837146684686336.
Definition EV_TO_K_bits : Z := 4667605265632302004.
Definition times (a b : Z) : Z := bits_of_b64 (b64_mult mode_NE (b64_of_bits a) (b64_of_bits b)).
Definition over (a b : Z) : Z := bits_of_b64 (b64_div mode_NE (b64_of_bits a) (b64_of_bits b)).
Definition kelvin_factor : Z := times MEV_TO_EV_bits EV_TO_K_bits.

(** ace.hpp 312-325 (without the file name) *)
Record acefile := mkFile {
  f_zaid : zaid; f_temperature : Z; f_awr : Z; f_fissile : bool;
  f_zaid_txt : list Z; f_date : list Z; f_comment : list Z; f_mat : list Z;
  f_izaw : list (Z * Z); f_nxs : list Z; f_jxs : list Z; f_xss : list Z }.

(** ** writing: ace.cpp 258-325. The records of XSS (300-322); [fuel] bounds the number of records *)
Definition doubles (xs : list Z) : list Z := flat_map (le 8) xs.
Fixpoint save_records (fuel : nat) (xs : list Z) : list Z :=
  match fuel, xs with
  | _, [] => []
  | O, _ => []
  | S m, _ =>
    let now := firstn 512 xs in
    let rlen := le 4 ((8 * sizeZ now) mod 2 ^ 32) in
    rlen ++ doubles now ++ rlen ++ save_records m (skipn 512 xs)
  end.
Definition save_header (a : acefile) (temperature : Z) : list Z :=
  let rlen := le 4 (100 + 64 * 4 + 18 * 8) in
  rlen ++ f_zaid_txt a ++ le 8 (f_awr a) ++ le 8 temperature ++ f_date a ++ f_comment a ++ f_mat a
  ++ flat_map (fun p => int32_bytes (fst p) ++ le 8 (snd p)) (f_izaw a)
  ++ flat_map int32_bytes (f_nxs a) ++ flat_map int32_bytes (f_jxs a) ++ rlen.
(** the bytes written and the object afterwards: line 273 divides temperature_ itself *)
Definition save_binary (a : acefile) : list Z * acefile :=
  let t := over (f_temperature a) kelvin_factor in
  (save_header a t ++ save_records (length (f_xss a)) (f_xss a),
   mkFile (f_zaid a) t (f_awr a) (f_fissile a) (f_zaid_txt a) (f_date a) (f_comment a) (f_mat a) (f_izaw a) (f_nxs a) (f_jxs a) (f_xss a)).

(** ** reading. The stream: the bytes ahead and whether the end has been hit (then nothing more is read and buffers keep their contents).
    [read n old]: istream::read of [n] bytes into a buffer that holds [old] *)
Record istream := mkIn { in_bytes : list Z; in_eof : bool }.
Definition read (n : nat) (old : list Z) (s : istream) : list Z * istream :=
  if in_eof s then (old, s)
  else if (n <=? length (in_bytes s))%nat then (firstn n (in_bytes s), mkIn (skipn n (in_bytes s)) false)
  else (in_bytes s ++ skipn (length (in_bytes s)) old, mkIn [] true).
Definition ignore (n : nat) (s : istream) : istream := snd (read n [] s).
(** 213-220; [junk]: the bytes the uninitialised locals i_zaid and i_awr hold *)
Fixpoint read_izaw (k : nat) (junk : list Z) (s : istream) : list (Z * Z) * istream :=
  match k with
  | O => ([], s)
  | S m =>
    let '(z, s) := read 4 (firstn 4 junk) s in
    let '(a, s) := read 8 junk s in
    let '(r, s) := read_izaw m junk s in ((int32_of z, of_le a) :: r, s)
  end.
(** 223-230; nxs_ and jxs_ are zero-initialised *)
Fixpoint read_ints (k : nat) (s : istream) : list Z * istream :=
  match k with
  | O => ([], s)
  | S m => let '(z, s) := read 4 [0; 0; 0; 0] s in let '(r, s) := read_ints m s in (int32_of z :: r, s)
  end.
(** xss_ as the bytes of its storage: overwrite from byte [off] *)
Definition overwrite (buf : list Z) (off : nat) (data : list Z) : list Z := firstn off buf ++ data ++ skipn (off + length data) buf.
(** 237-248; [rlen] holds the bytes of the variable rlen (uninitialised at first); writing past the end of the storage is undefined; [fuel]
    bounds the iterations *)
Fixpoint read_records (fuel : nat) (s : istream) (rlen : list Z) (i size : Z) (buf : list Z) : res (list Z) :=
  if (in_eof s || (size <=? i))%bool then Ok buf
  else match fuel with
       | O => NoDraw
       | S m =>
         let '(rlen, s) := read 4 rlen s in
         let n := Z.to_nat (of_le rlen) in
         let data := if in_eof s then [] else firstn n (in_bytes s) in
         if 8 * size <? 8 * i + sizeZ data then UB
         else
           let buf := overwrite buf (Z.to_nat (8 * i)) data in
           let s := ignore 4 (ignore n s) in
           read_records m s rlen (i + of_le rlen / 8) size buf
       end.
Fixpoint words8 (fuel : nat) (bs : list Z) : list Z :=
  match fuel with O => [] | S m => match bs with [] => [] | _ => of_le (firstn 8 bs) :: words8 m (skipn 8 bs) end end.
(** 37-50 (initial values), 189-256. resize with a negative length throws *)
Definition read_binary (junk : list Z) (bytes : list Z) : res acefile :=
  let s := ignore 4 (mkIn bytes false) in
  let '(zaid_txt, s) := read 10 (repeat 32 10) s in
  let '(awr, s) := read 8 (le 8 0) s in
  let '(t, s) := read 8 (le 8 0) s in
  let temperature := times (of_le t) kelvin_factor in
  let '(date, s) := read 10 (repeat 32 10) s in
  let '(comment, s) := read 70 (repeat 32 70) s in
  let '(mat, s) := read 10 (repeat 32 10) s in
  let '(izaw, s) := read_izaw 16 junk s in
  let '(nxs, s) := read_ints 16 s in
  let '(jxs, s) := read_ints 32 s in
  let s := ignore 4 s in
  let n := nth 0 nxs 0 in
  if n <? 0 then Throw
  else
    let! buf := read_records (S (length bytes)) s (firstn 4 junk) 0 n (repeat 0 (Z.to_nat (8 * n))) in
    let za := nth 1 nxs 0 mod 2 ^ 32 in
    let Z0 := (za / 1000) mod 256 in
    Ok (mkFile (mkZaid Z0 (wrap32 (za - Z0 * 1000))) temperature (of_le awr) (0 <? nth 1 jxs 0) zaid_txt date comment mat izaw nxs jxs (words8 (Z.to_nat n) buf)).
