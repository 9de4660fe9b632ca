(** * Specification vocabulary for the binary ACE format (C52-C54) *)
From Verif Require Import Base M_Ident M_AceBin.
From Coq Require Import ZArith List. Import ListNotations.
Local Open Scope Z_scope.

Definition is_byte (b : Z) : Prop := 0 <= b < 256.
Definition is_int32 (z : Z) : Prop := - 2 ^ 31 <= z < 2 ^ 31.
Definition is_double (z : Z) : Prop := 0 <= z < 2 ^ 64.

(** What every ACE object built by the library satisfies: fixed-length text fields and arrays, 32-bit integers, 64-bit doubles, and
    - as the header says - NXS(1) is the length of XSS; ZAID and fissile flag are those of NXS(2) and JXS(2). *)
Definition well_formed (a : acefile) : Prop :=
  length (f_zaid_txt a) = 10%nat /\ length (f_date a) = 10%nat /\ length (f_comment a) = 70%nat /\ length (f_mat a) = 10%nat /\
  is_double (f_temperature a) /\ is_double (f_awr a) /\
  length (f_izaw a) = 16%nat /\ Forall (fun p => is_int32 (fst p) /\ is_double (snd p)) (f_izaw a) /\
  length (f_nxs a) = 16%nat /\ Forall is_int32 (f_nxs a) /\ length (f_jxs a) = 32%nat /\ Forall is_int32 (f_jxs a) /\
  Forall is_double (f_xss a) /\ nth 0 (f_nxs a) 0 = Z.of_nat (length (f_xss a)) /\
  (exists z, 0 <= z < 256 /\ 0 <= nth 1 (f_nxs a) 0 < 256000 /\ z = nth 1 (f_nxs a) 0 / 1000 /\ f_zaid a = mkZaid z (nth 1 (f_nxs a) 0 mod 1000)) /\
  f_fissile a = (0 <? nth 1 (f_jxs a) 0).

(** everything but the temperature *)
Definition same_but_temperature (a b : acefile) : Prop :=
  f_zaid b = f_zaid a /\ f_awr b = f_awr a /\ f_fissile b = f_fissile a /\ f_zaid_txt b = f_zaid_txt a /\ f_date b = f_date a /\
  f_comment b = f_comment a /\ f_mat b = f_mat a /\ f_izaw b = f_izaw a /\ f_nxs b = f_nxs a /\ f_jxs b = f_jxs a /\ f_xss b = f_xss a.

(** A sequence of XSS records as the format defines them: length, data, length *)
Definition rec_bytes (data : list Z) : list Z := le 4 (Z.of_nat (length data)) ++ data ++ le 4 (Z.of_nat (length data)).
