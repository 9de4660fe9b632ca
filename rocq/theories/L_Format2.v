(** * From the bytes of a file to the nuclide *)
From Coq Require Import Reals Lra Lia List ZArith.
From Verif Require Import Base NumR M_Interp M_Tab1D M_Func M_Grid M_Packet M_PC M_OutE M_Spectra M_Kin M_Ident M_AceBin M_AceText M_Ace M_Neutron M_Laws M_Thermal S_AceBin S_AceText S_Laws S_File S_Format L_AceBin L_AceText L_AceText2 L_Format L_File.
Import ListNotations.
Local Open Scope Z_scope.

Section Conv.
  Context {T : Type} {N : Num T}.
  Variable dec : Z -> T.
  Lemma reformat_nuclide NB f g : same_but_temperature f g -> 
    (forall n, neutron_of_ace NB (ace_of_file dec f) = Ok n -> exists n', neutron_of_ace NB (ace_of_file dec g) = Ok n' /\ same_but_temperature_n n n' /\ n_temperature n' = dec (f_temperature g)) /\
    (forall n', neutron_of_ace NB (ace_of_file dec g) = Ok n' -> exists n, neutron_of_ace NB (ace_of_file dec f) = Ok n).
  Proof.
    intros (E1 & E2 & E3 & E4 & E5 & E6 & E7 & E8 & E9 & E10 & E11). unfold ace_of_file. rewrite E1, E2, E3, E9, E10, E11.
    pose proof (neutron_t (zaid_number (f_zaid f)) (dec (f_awr f)) (f_fissile f) (f_nxs f) (f_jxs f) (map dec (f_xss f)) (dec (f_temperature f)) (dec (f_temperature g)) NB) as G. rewrite G. split.
    - intros n H. rewrite H. cbn [bind]. eexists. split; [reflexivity|]. split; [constructor; reflexivity|reflexivity].
    - intros n' H. match type of H with bind ?m _ = _ => destruct m; try discriminate H end. eauto.
  Qed.
  Lemma reformat_thermal u f g : same_but_temperature f g -> 
    (forall t, make_tsl (ace_of_file dec f) u = Ok t -> exists t', make_tsl (ace_of_file dec g) u = Ok t' /\ same_but_temperature_t t t' /\ t_temp t' = dec (f_temperature g)) /\
    (forall t', make_tsl (ace_of_file dec g) u = Ok t' -> exists t, make_tsl (ace_of_file dec f) u = Ok t).
  Proof.
    intros (E1 & E2 & E3 & E4 & E5 & E6 & E7 & E8 & E9 & E10 & E11). unfold ace_of_file. rewrite E1, E2, E3, E9, E10, E11.
    pose proof (tsl_t (zaid_number (f_zaid f)) (dec (f_awr f)) (f_fissile f) (f_nxs f) (f_jxs f) (map dec (f_xss f)) (dec (f_temperature f)) (dec (f_temperature g)) u) as G. rewrite G. split.
    - intros n H. rewrite H. cbn [bind]. eexists. split; [reflexivity|]. split; [constructor; reflexivity|reflexivity].
    - intros n' H. match type of H with bind ?m _ = _ => destruct m; try discriminate H end. eauto.
  Qed.
End Conv.
Lemma zaid_of_nxs n : 0 <= n < 256000 -> zaid_number (mkZaid (n / 1000) (n mod 1000)) = n.
Proof. intros H. unfold zaid_number. cbn [za_Z za_A]. pose proof (Z.div_mod n 1000 ltac:(lia)) as Q. rewrite <- Q. apply Z.mod_small. lia. Qed.
Lemma text_nuclide strtod stod stoi junk (dec : Z -> R) x hb b awr t izaw nxs jxs xss xt rest F NB :
  head_text stoi x hb -> stod (x_awr x) = Ok awr -> stod (x_temp x) = Ok t -> arrays strtod izaw nxs jxs b -> 0 <= nth 1 nxs 0 < 256000 ->
  written (double_text strtod) xss xt -> nth 0 nxs 0 = Z.of_nat (length xss) -> ends rest ->
  describes (mkAce (nth 1 nxs 0) (dec awr) (dec (times (times t MEV_TO_EV_bits) EV_TO_K_bits)) (0 <? nth 1 jxs 0) nxs jxs (map dec xss)) F ->
  exists f n, read_ascii strtod stod stoi junk (hb ++ b ++ xt ++ rest) = Ok f /\ neutron_of_ace NB (ace_of_file dec f) = Ok n /\ carries (ace_of_file dec f) F n.
Proof.
  intros HH Ha Ht HA HZ HX HN HR D. eexists. rewrite (read_complete strtod stod stoi junk x hb b awr t izaw nxs jxs xss xt rest HH Ha Ht HA HZ HX HN HR).
  match goal with |- exists n, Ok ?f = Ok _ /\ _ => assert (E : ace_of_file dec f = mkAce (nth 1 nxs 0) (dec awr) (dec (times (times t MEV_TO_EV_bits) EV_TO_K_bits)) (0 <? nth 1 jxs 0) nxs jxs (map dec xss)) end.
  { unfold ace_of_file, file_with. cbn [f_zaid f_awr f_temperature f_fissile f_nxs f_jxs f_xss]. rewrite (zaid_of_nxs (nth 1 nxs 0) HZ). reflexivity. }
  destruct (file_carried _ F NB D) as (n & H1 & H2). exists n. split; [reflexivity|]. rewrite E. split; assumption.
Qed.
