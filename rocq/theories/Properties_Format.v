(** * C105: the nuclide comes from the bytes of the file, in either format *)
From Coq Require Import Reals Lra Lia List ZArith.
From Verif Require Import Base NumR M_Interp M_Tab1D M_Func M_Grid M_Packet M_PC M_OutE M_Spectra M_Kin M_Ident M_AceBin M_AceText M_Ace M_Neutron M_Laws M_Thermal S_AceBin S_AceText S_Laws S_ThermalFile S_File S_Format L_AceBin L_AceText L_File L_Format L_Format2 L_FormatEx Properties_AceBin Properties_AceText.
Import ListNotations.
Local Open Scope Z_scope.

(** An ACE object saved in binary and loaded again gives the same nuclide - or is refused as the first is - in any arithmetic; only the temperature
    may differ (C52 says when). [dec] is the number a double stands for. *)
Theorem C105_binary_nuclide : forall junk f, well_formed f -> exists g, read_binary junk (fst (save_binary f)) = Ok g /\
  forall T (N : Num T) (dec : Z -> T) NB,
    (forall n, neutron_of_ace NB (ace_of_file dec f) = Ok n -> exists n', neutron_of_ace NB (ace_of_file dec g) = Ok n' /\ same_but_temperature_n n n' /\ n_temperature n' = dec (f_temperature g)) /\
    (forall n', neutron_of_ace NB (ace_of_file dec g) = Ok n' -> exists n, neutron_of_ace NB (ace_of_file dec f) = Ok n).
Proof. intros junk f W. destruct (C52_save_then_load_partial junk f W) as (g & H & S & _). exists g. split; [exact H|]. intros T N dec NB. exact (reformat_nuclide dec NB f g S). Qed.
Print Assumptions C105_binary_nuclide.
Theorem C105_binary_thermal : forall junk f, well_formed f -> exists g, read_binary junk (fst (save_binary f)) = Ok g /\
  forall T (N : Num T) (dec : Z -> T) u,
    (forall t, make_tsl (ace_of_file dec f) u = Ok t -> exists t', make_tsl (ace_of_file dec g) u = Ok t' /\ same_but_temperature_t t t' /\ t_temp t' = dec (f_temperature g)) /\
    (forall t', make_tsl (ace_of_file dec g) u = Ok t' -> exists t, make_tsl (ace_of_file dec f) u = Ok t).
Proof. intros junk f W. destruct (C52_save_then_load_partial junk f W) as (g & H & S & _). exists g. split; [exact H|]. intros T N dec u. exact (reformat_thermal dec u f g S). Qed.
Print Assumptions C105_binary_thermal.
(** The text of a file laid out as the format says (C84: header, arrays and XSS; C102: the blocks in XSS) gives the nuclide the file describes. *)
Theorem C105_text_nuclide : forall strtod stod stoi junk (dec : Z -> R) x hb b awr t izaw nxs jxs xss xt rest F NB,
  head_text stoi x hb -> stod (x_awr x) = Ok awr -> stod (x_temp x) = Ok t -> arrays strtod izaw nxs jxs b -> 0 <= nth 1 nxs 0 < 256000 ->
  written (double_text strtod) xss xt -> nth 0 nxs 0 = Z.of_nat (length xss) -> ends rest ->
  describes (mkAce (nth 1 nxs 0) (dec awr) (dec (times (times t MEV_TO_EV_bits) EV_TO_K_bits)) (0 <? nth 1 jxs 0) nxs jxs (map dec xss)) F ->
  exists f n, read_ascii strtod stod stoi junk (hb ++ b ++ xt ++ rest) = Ok f /\ neutron_of_ace NB (ace_of_file dec f) = Ok n /\ carries (ace_of_file dec f) F n.
Proof. exact text_nuclide. Qed.
Print Assumptions C105_text_nuclide.
(** hence a text and its binary conversion give the same nuclide *)
Theorem C105_text_then_binary : forall strtod stod stoi junk bytes f,
  (forall w, is_double (fst (strtod w))) -> (forall w v, stod w = Ok v -> is_double v) -> (forall k, is_int32 (fst (junk k)) /\ is_double (snd (junk k))) ->
  read_ascii strtod stod stoi junk bytes = Ok f -> 0 <= nth 1 (f_nxs f) 0 < 256000 ->
  forall junk', exists g, read_binary junk' (fst (save_binary f)) = Ok g /\
    forall T (N : Num T) (dec : Z -> T) NB n, neutron_of_ace NB (ace_of_file dec f) = Ok n -> exists n', neutron_of_ace NB (ace_of_file dec g) = Ok n' /\ same_but_temperature_n n n'.
Proof.
  intros strtod stod stoi junk bytes f H1 H2 H3 H4 H5 j. destruct (C84_to_binary strtod stod stoi junk bytes f H1 H2 H3 H4 H5 j) as (g & H & S). exists g. split; [exact H|].
  intros T N dec NB n Hn. destruct (reformat_nuclide dec NB f g S) as [G _]. destruct (G n Hn) as (n' & E & E' & _). eauto.
Qed.
Print Assumptions C105_text_then_binary.
(** the example file of C102, as a text in binary64: it is read, it is loaded, and its binary conversion is loaded as the same nuclide *)
Example C105_case : forall stoi junk, exists bytes f n F, read_ascii strtod_fw stod_fw stoi junk bytes = Ok f /\ neutron_of_ace 10 (ace_of_file dec_double f) = Ok n /\ carries (ace_of_file dec_double f) F n /\
  length (fd_reactions F) = 3%nat /\ length (f_xss f) = 76%nat.
Proof.
  intros stoi junk. destruct (fx_as_text stoi) as (hb & b & izaw & xt & t & HH & Ha & Ht & HA & HX & HE). destruct L_LawsEx.half_tab as (tb & Htab).
  destruct (C105_text_nuclide strtod_fw stod_fw stoi junk dec_double fw_texts hb b _ t izaw L_FileEx.fx_nxs L_FileEx.fx_jxs (map fw_bits fw_idx) xt [10] (L_FileEx.fxds 4 tb) 10 HH Ha Ht HA) as (f & n & H1 & H2 & H3); try assumption; try reflexivity.
  - cbn; lia.
  - cbn. unfold white. cbn. tauto.
  - rewrite HE. apply L_FileEx.fxs_describes; [lra|exact Htab].
  - exists (hb ++ b ++ xt ++ [10]), f, n, (L_FileEx.fxds 4 tb). repeat (split; [assumption|]). split; [reflexivity|].
    pose proof H1 as H1'. rewrite (L_AceText2.read_complete strtod_fw stod_fw stoi junk fw_texts hb b _ t izaw L_FileEx.fx_nxs L_FileEx.fx_jxs (map fw_bits fw_idx) xt [10] HH Ha Ht HA ltac:(cbn; lia) HX eq_refl ltac:(cbn; unfold white; cbn; tauto)) in H1'. injection H1' as <-. reflexivity.
Qed.
Print Assumptions C105_case.
