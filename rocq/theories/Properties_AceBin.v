(** * C52-C54: the binary ACE format *)
From Verif Require Import NumF Base NumR M_Ident M_AceBin S_AceBin L_AceBin L_AceBin2 L_AceBin3.
From Flocq Require Import Core IEEE754.BinarySingleNaN IEEE754.Binary IEEE754.Bits.
From Coq Require Import Reals ZArith List Lia Lra. Import ListNotations.
Local Open Scope Z_scope.

(** U-235 at the temperature [t] (the 64 bits of a double), with [n] table entries *)
Definition demo (t : Z) (n : nat) : acefile :=
  mkFile (mkZaid 92 235) t 4642554115906183168 true (repeat 57 10) (repeat 48 10) (repeat 65 70) (repeat 66 10)
    (repeat (- 1, 0) 16) (Z.of_nat n :: 92235 :: repeat (- 7) 14) (1 :: 2 :: repeat 0 30) (repeat 4607182418800017408 n).
Lemma Forall_repeat {A} (P : A -> Prop) x n : P x -> Forall P (repeat x n).
Proof. intro H. induction n; cbn; constructor; auto. Qed.
Lemma demo_wf t n : is_double t -> Z.of_nat n < 2 ^ 20 -> well_formed (demo t n).
Proof.
  intros Ht Hn. unfold well_formed, demo. cbn [f_zaid f_temperature f_awr f_fissile f_zaid_txt f_date f_comment f_mat f_izaw f_nxs f_jxs f_xss].
  rewrite !repeat_length. cbn [nth]. repeat match goal with |- _ /\ _ => split end; try reflexivity; try exact Ht; try (unfold is_double; lia).

  - apply Forall_repeat. unfold is_int32, is_double. cbn [fst snd]. lia.
  - constructor; [unfold is_int32; lia|]. constructor; [unfold is_int32; lia|]. apply Forall_repeat. unfold is_int32; lia.
  - constructor; [unfold is_int32; lia|]. constructor; [unfold is_int32; lia|]. apply Forall_repeat. unfold is_int32; lia.
  - apply Forall_repeat. unfold is_double; lia.
  - exists 92. repeat split; lia.
Qed.
(** 2.53e-8 MeV is 293.594308436 K *)
Definition room : Z := 4493231684670076546.

(** ** C52 *)
(** Whatever the object, whatever the number of entries (and so of records), everything but the temperature comes back bit by bit; the
    temperature is divided by the conversion factor when saved and multiplied by it when loaded. *)
Theorem C52_save_then_load_partial junk a : well_formed a ->
  exists b, read_binary junk (fst (save_binary a)) = Ok b /\ same_but_temperature a b /\
    f_temperature b = times (over (f_temperature a) kelvin_factor) kelvin_factor.
Proof. intro W. eexists. split; [exact (round_trip junk a W)|]. split; [|reflexivity]. unfold same_but_temperature. cbn. repeat split. Qed.
(** For a temperature that came out of a file (x MeV times the factor, between 2^-900 and 2^900 MeV), other than a power of two kelvin, the
    whole object comes back, temperature included. *)
Theorem C52_save_then_load_exact_partial junk a x : well_formed a ->
  is_finite 53 1024 (b64_of_bits x) = true -> (bpow radix2 (-900) <= B2R 53 1024 (b64_of_bits x) <= bpow radix2 900)%R ->
  f_temperature a = times x kelvin_factor -> (forall k, B2R 53 1024 (b64_of_bits (f_temperature a)) <> bpow radix2 k) ->
  read_binary junk (fst (save_binary a)) = Ok a.
Proof.
  intros W F R E NP. rewrite (round_trip junk a W). f_equal. rewrite E, bits_trip; [rewrite <- E; destruct a; reflexivity|exact F|exact R|rewrite <- E; exact NP].
Qed.
Theorem C52_save_then_load_zero_kelvin_partial junk a : well_formed a -> f_temperature a = 0 -> read_binary junk (fst (save_binary a)) = Ok a.
Proof.
  intros W E. rewrite (round_trip junk a W). f_equal. rewrite E. replace (times (over 0 kelvin_factor) kelvin_factor) with 0 by (vm_compute; reflexivity).
  rewrite <- E. destruct a; reflexivity.
Qed.
(** the conversion factor is 11604518120 K/MeV exactly *)
Theorem C52_factor : B2R 53 1024 (b64_of_bits kelvin_factor) = 11604518120%R.
Proof. exact (proj1 kelvin_K). Qed.
(** At 256 K, as it comes out of a file, saving and loading gives the double below 256. *)
Theorem C52_power_of_two_temperature_refuted : exists a x, well_formed a /\ f_temperature a = times x kelvin_factor /\
  B2R 53 1024 (b64_of_bits (f_temperature a)) = 256%R /\
  forall junk, exists b, read_binary junk (fst (save_binary a)) = Ok b /\ f_temperature b = f_temperature a - 1.
Proof.
  exists (demo 4643211215818981376 3), 4492252567535076621. split; [apply demo_wf; [unfold is_double; lia|]; vm_compute; reflexivity|].
  split; [vm_compute; reflexivity|]. split.
  - cbn [demo f_temperature]. assert (E : B2FF 53 1024 (b64_of_bits 4643211215818981376) = F754_finite false 4503599627370496 (-44)) by (vm_compute; reflexivity).
    rewrite <- FF2R_B2FF, E. unfold FF2R, F2R. cbn. lra.
  - intro junk. eexists. split; [apply round_trip; apply demo_wf; [unfold is_double; lia|]; vm_compute; reflexivity|]. vm_compute. reflexivity.
Qed.
(** a file of three records (513 + 512 entries), at 293.594308436 K, comes back *)
Example C52_example junk : read_binary junk (fst (save_binary (demo (times room kelvin_factor) 1025))) = Ok (demo (times room kelvin_factor) 1025).
Proof.
  assert (E : B2FF 53 1024 (b64_of_bits room) = F754_finite false 7646455809062530 (-78)) by (vm_compute; reflexivity).
  assert (V : B2R 53 1024 (b64_of_bits room) = (7646455809062530 * bpow radix2 (-78))%R) by (rewrite <- FF2R_B2FF, E; reflexivity).
  apply (C52_save_then_load_exact_partial junk _ room).
  - apply demo_wf; [apply times_double|]. vm_compute; reflexivity.
  - vm_compute. reflexivity.
  - rewrite V. pose proof (bpow_gt_0 radix2 (-78)). split.
    + apply Rle_trans with (bpow radix2 (-78)); [apply bpow_le; lia|lra].
    + apply Rle_trans with (bpow radix2 53 * bpow radix2 (-78))%R; [apply Rmult_le_compat_r; [lra|]; cbn; lra|]. rewrite <- bpow_plus. apply bpow_le; lia.
  - reflexivity.
  - intros k K. cbn [demo f_temperature] in K. assert (E2 : B2FF 53 1024 (b64_of_bits (times room kelvin_factor)) = F754_finite false 5164965695587766 (-44)) by (vm_compute; reflexivity).
    rewrite <- FF2R_B2FF, E2 in K. unfold FF2R, F2R in K. cbn [Fnum Fexp cond_Zopp] in K.
    assert (L : (bpow radix2 8 < bpow radix2 k < bpow radix2 9)%R) by (rewrite <- K; cbn; lra).
    destruct L as [L1 L2]. apply lt_bpow in L1, L2. lia.
Qed.

(** ** C53 *)
Theorem C53_save_changes_nothing_but_temperature_partial a : same_but_temperature a (snd (save_binary a)).
Proof. unfold same_but_temperature. cbn. repeat split. Qed.
(** ... but the temperature reported after saving is in MeV, *)
Theorem C53_save_changes_temperature_refuted : exists a, well_formed a /\ f_temperature a = times room kelvin_factor /\ f_temperature (snd (save_binary a)) = room /\ room <> times room kelvin_factor.
Proof. exists (demo (times room kelvin_factor) 3). split; [apply demo_wf; [apply times_double|]; vm_compute; reflexivity|]. repeat split; vm_compute; discriminate. Qed.
(** and saving again writes other bytes, which are loaded as an object at another temperature. *)
Theorem C53_second_save_differs_refuted : exists a, well_formed a /\ fst (save_binary (snd (save_binary a))) <> fst (save_binary a) /\
  forall junk, exists b, read_binary junk (fst (save_binary (snd (save_binary a)))) = Ok b /\ f_temperature b <> f_temperature a.
Proof.
  exists (demo (times room kelvin_factor) 3). split; [apply demo_wf; [apply times_double|]; vm_compute; reflexivity|].
  split; [intro E; apply (f_equal (fun l => nth 22 l 0)) in E; vm_compute in E; discriminate|]. intro junk.
  eexists. split; [apply round_trip; apply (demo_wf (over (times room kelvin_factor) kelvin_factor) 3); [apply over_double|]; vm_compute; reflexivity|].
  vm_compute. discriminate.
Qed.

(** ** C54 *)
(** Reading ends for every sequence of bytes. *)
Theorem C54_reading_terminates junk bytes : read_binary junk bytes <> NoDraw.
Proof. exact (read_binary_terminates junk bytes). Qed.
(** A file whose records together hold no more than the declared number of entries is read without leaving the table, wherever it is cut. *)
Theorem C54_fitting_records_are_safe_partial junk header recs k : length header = 508%nat ->
  Z.of_nat (length (concat recs)) <= 8 * int32_of (firstn 4 (skipn 312 header)) -> Forall (fun d => Z.of_nat (length d) < 2 ^ 32) recs ->
  read_binary junk (firstn k (header ++ flat_map rec_bytes recs)) <> UB.
Proof. exact (fitting_file junk header recs k). Qed.
Theorem C54_truncated_saved_file_is_safe_partial junk a k : well_formed a -> read_binary junk (firstn k (fst (save_binary a))) <> UB.
Proof. exact (truncated_save junk a k). Qed.
(** Any file whose first record is longer than the declared table makes the reader write past its end. *)
Theorem C54_overlong_record_refuted junk header data rest : length header = 508%nat -> 0 < int32_of (firstn 4 (skipn 312 header)) ->
  8 * int32_of (firstn 4 (skipn 312 header)) < Z.of_nat (length data) -> Z.of_nat (length data) < 2 ^ 32 ->
  read_binary junk (header ++ rec_bytes data ++ rest) = UB.
Proof. exact (overrun junk header data rest). Qed.
Example C54_overlong_example : exists a, forall junk, read_binary junk (fst (save_binary a)) = UB.
Proof.
  pose (a := mkFile (mkZaid 92 235) 0 0 true (repeat 57 10) (repeat 48 10) (repeat 65 70) (repeat 66 10) (repeat (- 1, 0) 16) (1 :: repeat 0 15) (repeat 0 32) [5; 6]).
  exists a. intro junk.
  change (fst (save_binary a)) with (save_header a (over 0 kelvin_factor) ++ rec_bytes (doubles [5; 6]) ++ []).
  apply C54_overlong_record_refuted; [vm_compute; reflexivity| | |]; vm_compute; reflexivity.
Qed.
(** A file cut off after its header is not an error: all table entries are zero. So is an empty file. *)
Theorem C54_truncation_unnoticed_refuted junk a : well_formed a -> exists b, read_binary junk (firstn 508 (fst (save_binary a))) = Ok b /\
  f_nxs b = f_nxs a /\ f_jxs b = f_jxs a /\ f_zaid b = f_zaid a /\ f_xss b = repeat 0 (length (f_xss a)).
Proof. exact (truncated_to_header junk a). Qed.
Theorem C54_empty_file_accepted_refuted junk : exists b, read_binary junk [] = Ok b /\ f_zaid b = mkZaid 0 0 /\ f_xss b = [].
Proof. eexists. repeat split. Qed.
Example C54_example : exists a, well_formed a /\ length (f_xss a) = 1025%nat.
Proof. exists (demo 0 1025). split; [apply demo_wf; [unfold is_double; lia|]; vm_compute; reflexivity|apply repeat_length]. Qed.

Print Assumptions C52_save_then_load_partial.
Print Assumptions C52_save_then_load_exact_partial.
Print Assumptions C52_save_then_load_zero_kelvin_partial.
Print Assumptions C52_factor.
Print Assumptions C52_power_of_two_temperature_refuted.
Print Assumptions C53_save_changes_nothing_but_temperature_partial.
Print Assumptions C53_save_changes_temperature_refuted.
Print Assumptions C53_second_save_differs_refuted.
Print Assumptions C54_reading_terminates.
Print Assumptions C54_fitting_records_are_safe_partial.
Print Assumptions C54_truncated_saved_file_is_safe_partial.
Print Assumptions C54_overlong_record_refuted.
Print Assumptions C54_truncation_unnoticed_refuted.
Print Assumptions C54_empty_file_accepted_refuted.
