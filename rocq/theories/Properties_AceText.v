(** * C84: reading ASCII ACE files *)
From Verif Require Import NumF Base NumR M_Ident M_AceBin S_AceBin L_AceBin L_AceBin2 M_AceText S_AceText L_AceText L_AceText2 L_AceText3.
From Coq Require Import ZArith List Lia. Import ListNotations.
Local Open Scope Z_scope.

(** [strtod], [stod] and [stoi] are the C++ library's conversions; [junk] is whatever uninitialised memory holds. *)

(** A file with a legacy or a 2.0 header (with or without the legacy lines), the sixteen IZAW pairs, NXS, JXS and exactly NXS(1) numbers, then
    anything: every field is returned, in order; any spacing, line ends, number formats. *)
Theorem C84_reads_what_is_written_partial strtod stod stoi junk x hb b awr t izaw nxs jxs xss xt rest :
  head_text stoi x hb -> stod (x_awr x) = Ok awr -> stod (x_temp x) = Ok t -> arrays strtod izaw nxs jxs b -> 0 <= nth 1 nxs 0 < 256000 ->
  written (double_text strtod) xss xt -> nth 0 nxs 0 = Z.of_nat (length xss) -> ends rest ->
  read_ascii strtod stod stoi junk (hb ++ b ++ xt ++ rest) =
    Ok (mkFile (mkZaid (nth 1 nxs 0 / 1000) (nth 1 nxs 0 mod 1000)) (times (times t MEV_TO_EV_bits) EV_TO_K_bits) awr (0 <? nth 1 jxs 0)
               (x_zaid x) (x_date x) (x_comment x) (x_mat x) izaw nxs jxs xss).
Proof. exact (read_complete strtod stod stoi junk x hb b awr t izaw nxs jxs xss xt rest). Qed.
Print Assumptions C84_reads_what_is_written_partial.
(** whatever the bytes: an accepted file has all arrays complete, 32-bit integers, NXS(1) entries in XSS ... *)
Theorem C84_accepted_well_formed strtod stod stoi junk bytes f :
  (forall w, is_double (fst (strtod w))) -> (forall w v, stod w = Ok v -> is_double v) -> (forall k, is_int32 (fst (junk k)) /\ is_double (snd (junk k))) ->
  read_ascii strtod stod stoi junk bytes = Ok f -> 0 <= nth 1 (f_nxs f) 0 < 256000 -> well_formed f.
Proof. intros. eapply read_accepted; eassumption. Qed.
Print Assumptions C84_accepted_well_formed.
(** ... so that it can be saved in binary and loaded again, all but the temperature unchanged *)
Theorem C84_to_binary strtod stod stoi junk bytes f :
  (forall w, is_double (fst (strtod w))) -> (forall w v, stod w = Ok v -> is_double v) -> (forall k, is_int32 (fst (junk k)) /\ is_double (snd (junk k))) ->
  read_ascii strtod stod stoi junk bytes = Ok f -> 0 <= nth 1 (f_nxs f) 0 < 256000 ->
  forall junk', exists g, read_binary junk' (fst (save_binary f)) = Ok g /\ same_but_temperature f g.
Proof.
  intros H1 H2 H3 H4 H5 j. pose proof (C84_accepted_well_formed strtod stod stoi junk bytes f H1 H2 H3 H4 H5) as W. eexists. split; [exact (round_trip j f W)|]. unfold same_but_temperature. cbn. repeat split.
Qed.
Print Assumptions C84_to_binary.
(** A file that stops at least two numbers short, or one short without a final line end, is rejected *)
Theorem C84_short_rejected_partial strtod stod stoi junk x hb b awr t izaw nxs jxs xss xt rest :
  head_text stoi x hb -> stod (x_awr x) = Ok awr -> stod (x_temp x) = Ok t -> arrays strtod izaw nxs jxs b -> 0 <= nth 1 nxs 0 < 256000 ->
  written (double_text strtod) xss xt -> Forall white rest -> Z.of_nat (length xss) < nth 0 nxs 0 -> rest = [] \/ Z.of_nat (length xss) + 1 < nth 0 nxs 0 ->
  read_ascii strtod stod stoi junk (hb ++ b ++ xt ++ rest) = Throw.
Proof.
  intros HH Ha Ht HA HZ HX HW HN Hr. rewrite (read_short strtod stod stoi junk x hb b awr t izaw nxs jxs xss xt rest HH Ha Ht HA HZ HX HW HN). unfold sizeZ.
  destruct rest; [reflexivity|]. destruct Hr as [Hr|Hr]; [discriminate|]. destruct (Z.eqb_spec (Z.of_nat (length xss) + 1) (nth 0 nxs 0)); [lia|reflexivity].
Qed.
Print Assumptions C84_short_rejected_partial.
(** One number short with a final line end: accepted, the missing number is zero *)
Theorem C84_one_missing_accepted_refuted strtod stod stoi junk x hb b awr t izaw nxs jxs xss xt rest :
  head_text stoi x hb -> stod (x_awr x) = Ok awr -> stod (x_temp x) = Ok t -> arrays strtod izaw nxs jxs b -> 0 <= nth 1 nxs 0 < 256000 ->
  written (double_text strtod) xss xt -> gap rest -> Z.of_nat (length xss) + 1 = nth 0 nxs 0 ->
  exists f, read_ascii strtod stod stoi junk (hb ++ b ++ xt ++ rest) = Ok f /\ f_xss f = xss ++ [0].
Proof.
  intros HH Ha Ht HA HZ HX [HG HW] HN. rewrite (read_short strtod stod stoi junk x hb b awr t izaw nxs jxs xss xt rest HH Ha Ht HA HZ HX HW ltac:(unfold sizeZ; lia)). unfold sizeZ.
  destruct rest; [contradiction|]. rewrite (proj2 (Z.eqb_eq _ _) HN). eexists. split; reflexivity.
Qed.
Print Assumptions C84_one_missing_accepted_refuted.
(** A word that is no number (NaN, inf, a Fortran overflow): accepted, every entry from there on is zero *)
Theorem C84_bad_word_accepted_refuted strtod stod stoi junk x hb b awr t izaw nxs jxs xss xt g c rest : strtod [] = (0, true) ->
  head_text stoi x hb -> stod (x_awr x) = Ok awr -> stod (x_temp x) = Ok t -> arrays strtod izaw nxs jxs b -> 0 <= nth 1 nxs 0 < 256000 ->
  written (double_text strtod) xss xt -> gap g -> no_number c -> Z.of_nat (length xss) < nth 0 nxs 0 ->
  exists f, read_ascii strtod stod stoi junk (hb ++ b ++ xt ++ g ++ c :: rest) = Ok f /\ f_xss f = xss ++ repeat 0 (Z.to_nat (nth 0 nxs 0 - Z.of_nat (length xss))).
Proof.
  intros H0 HH Ha Ht HA HZ HX HG HC HN. rewrite (read_garbage strtod stod stoi junk x hb b awr t izaw nxs jxs xss xt g c rest H0 HH Ha Ht HA HZ HX HG HC HN). eexists. split; reflexivity.
Qed.
Print Assumptions C84_bad_word_accepted_refuted.
(** The case the error message is about: an exponent without its E (1.234-101) is read as two numbers; the file is accepted, all later entries
    move up by one and the last one is lost *)
Theorem C84_missing_E_accepted_refuted strtod stod stoi junk x hb b awr t izaw nxs jxs pre pt g m e vm ve post qt rest :
  head_text stoi x hb -> stod (x_awr x) = Ok awr -> stod (x_temp x) = Ok t -> arrays strtod izaw nxs jxs b -> 0 <= nth 1 nxs 0 < 256000 ->
  written (double_text strtod) pre pt -> gap g -> mantissa_text m -> strtod m = (vm, false) -> exponent_text e -> strtod e = (ve, false) -> written (double_text strtod) post qt -> ends rest ->
  nth 0 nxs 0 = Z.of_nat (length pre) + 1 + Z.of_nat (length post) ->
  exists f, read_ascii strtod stod stoi junk (hb ++ b ++ pt ++ (g ++ m ++ e) ++ qt ++ rest) = Ok f /\ f_xss f = pre ++ [vm] ++ firstn (length post) (ve :: post).
Proof.
  intros HH Ha Ht HA HZ HP HG Hm Vm He Ve HQ HE HN. rewrite (read_glued strtod stod stoi junk x hb b awr t izaw nxs jxs pre pt g m e vm ve post qt rest HH Ha Ht HA HZ HP HG Hm Vm He Ve HQ HE HN).
  eexists. split; reflexivity.
Qed.
Print Assumptions C84_missing_E_accepted_refuted.
(** A header followed by anything that starts with no number: accepted, with all of NXS and JXS zero and no data *)
Theorem C84_no_numbers_accepted_refuted strtod stod stoi junk x hb awr t g c rest :
  head_text stoi x hb -> stod (x_awr x) = Ok awr -> stod (x_temp x) = Ok t -> Forall white g -> no_number c ->
  exists f, read_ascii strtod stod stoi junk (hb ++ g ++ c :: rest) = Ok f /\ f_nxs f = repeat 0 16 /\ f_jxs f = repeat 0 32 /\ f_xss f = [].
Proof. intros HH Ha Ht HG HC. destruct (read_no_numbers strtod stod stoi junk x hb awr t g c rest HH Ha Ht HG HC) as (izaw & ->). eexists. repeat split. Qed.
Print Assumptions C84_no_numbers_accepted_refuted.
(** A second line of a 2.0 header with fewer than four words is undefined behaviour *)
Theorem C84_short_header_refuted strtod stod stoi junk awr temp a t rest : no_space awr -> no_space temp -> ~ In 10 awr -> ~ In 10 temp -> stod awr = Ok a -> stod temp = Ok t ->
  read_ascii strtod stod stoi junk ([50; 46; 48; 10] ++ awr ++ [32] ++ temp ++ [10] ++ rest) = UB.
Proof.
  intros Wa Wt Na Nt Ha Ht. unfold read_ascii. cbn [app starts_modern]. unfold modern_header, at_start.
  change (t_getline [] (mkTs (50 :: 46 :: 48 :: 10 :: awr ++ 32 :: temp ++ 10 :: rest) false false)) with ([50; 46; 48], mkTs (awr ++ 32 :: temp ++ 10 :: rest) false false).
  replace (awr ++ 32 :: temp ++ 10 :: rest) with ((awr ++ [32] ++ temp) ++ 10 :: rest) by (rewrite <- !app_assoc; reflexivity).
  rewrite t_getline_app by (intro H; apply in_app_or in H as [H|H]; [exact (Na H)|]; apply in_app_or in H as [[H|[]]|H]; [discriminate|exact (Nt H)]).
  assert (E : split_line (awr ++ [32] ++ temp) = [awr; temp]).
  { unfold split_line. rewrite split_word_gap by (try assumption; try discriminate; repeat constructor). rewrite <- (app_nil_r temp) at 1. rewrite split_word by (exact (proj2 Wt)). destruct temp; [destruct Wt; contradiction|reflexivity]. }
  rewrite E. change (atZ [awr; temp] 0) with (Ok awr). change (atZ [awr; temp] 1) with (Ok temp). cbn [bind]. rewrite Ha, Ht. reflexivity.
Qed.
Print Assumptions C84_short_header_refuted.
(** ASCII multiplies by 1e6 and then by the Boltzmann factor, binary by their product: at 2.5852e-8 MeV (300 K) the two formats give
    different temperatures *)
Theorem C84_formats_disagree_refuted : exists t, is_double t /\ times (times t MEV_TO_EV_bits) EV_TO_K_bits <> times t kelvin_factor.
Proof. exists 4493398516433183364. split; [unfold is_double; lia|]. vm_compute. discriminate. Qed.
Print Assumptions C84_formats_disagree_refuted.

(** ** a file that meets the hypotheses *)
Definition strtod_ex (w : list Z) : Z * bool := match w with [] => (0, true) | _ => (Z.of_nat (length w), false) end.
Definition stod_ex (w : list Z) : res Z := Ok 0.
Definition stoi_ex (w : list Z) : res Z := Ok 2.
Definition texts_ex : texts := mkTexts (repeat 49 12) (repeat 48 12) (57 :: repeat 48 9) (repeat 49 10) (repeat 65 70) (repeat 66 10).
Lemma written_repeat {V} (P : list Z -> V -> Prop) v w n : P w v -> written P (repeat v n) (concat (repeat (32 :: w) n)).
Proof.
  intro H. induction n as [|n IH]; [constructor|]. cbn [repeat concat]. apply (w_cons P v _ [32] w _); [split; [discriminate|repeat constructor; unfold white; cbn; tauto]|exact H|exact IH].
Qed.
Lemma int_text_ex v w : is_int32 v -> w <> [] -> Forall digit w -> v = decimal w -> int_text w v.
Proof. intros H1 H2 H3 H4. split; [exact H1|]. exists [], w. split; [left; reflexivity|]. split; [exact H2|]. split; [exact H3|]. split; [reflexivity|]. left. split; [exact H4|discriminate]. Qed.
(** -1.5E+2 *)
Definition number_ex : list Z := [45; 49; 46; 53; 69; 43; 50].
Lemma float_ex : float_text number_ex.
Proof.
  exists [45], [49], [46; 53], [69; 43; 50]. split; [right; right; reflexivity|]. split; [repeat constructor; unfold digit; lia|]. split; [right; exists [53]; split; [reflexivity|repeat constructor; unfold digit; lia]|].
  split; [exists 49; split; [left; reflexivity|unfold digit; lia]|]. split; [|reflexivity]. right. exists 69, [43], [50]. split; [right; reflexivity|]. split; [right; left; reflexivity|]. split; [repeat constructor; unfold digit; lia|reflexivity].
Qed.
Example C84_nonvacuous : exists hb b izaw nxs jxs xss xt, head_text stoi_ex texts_ex hb /\ arrays strtod_ex izaw nxs jxs b /\ nth 1 nxs 0 = 92235 /\
  written (double_text strtod_ex) xss xt /\ nth 0 nxs 0 = Z.of_nat (length xss) /\ length xss = 3%nat.
Proof.
  do 2 eexists. exists (repeat (7, 7) 16), (3 :: 92235 :: repeat 7 14), (repeat 7 32), (repeat 7 3). eexists.
  assert (I7 : int_text [55] 7) by (apply int_text_ex; [unfold is_int32; lia|discriminate|repeat constructor; unfold digit; lia|reflexivity]).
  assert (D7 : double_text strtod_ex number_ex 7) by (split; [exact float_ex|reflexivity]).
  assert (G : gap [32]) by (split; [discriminate|repeat constructor; unfold white; cbn; tauto]).
  split; [apply (legacy stoi_ex texts_ex [32]); try reflexivity; [cbn; lia|]|].
  { split; [reflexivity|]. split; [reflexivity|]. split; [reflexivity|]. split; [cbn; lia|]. exists [10]. split; [left; reflexivity|reflexivity]. }
  split.
  { split; [reflexivity|]. split; [reflexivity|]. split; [reflexivity|]. do 3 eexists. split; [apply (written_repeat _ (7, 7) ([55] ++ [32] ++ number_ex) 16); exists [55], [32], number_ex; auto|].
    split; [|split; [apply (written_repeat _ 7 [55] 32 I7)|reflexivity]].
    apply (w_cons _ 3 _ [32] [51]); [exact G|apply int_text_ex; [unfold is_int32; lia|discriminate|repeat constructor; unfold digit; lia|reflexivity]|].
    apply (w_cons _ 92235 _ [32] [57; 50; 50; 51; 53]); [exact G|apply int_text_ex; [unfold is_int32; lia|discriminate|repeat constructor; unfold digit; lia|reflexivity]|]. exact (written_repeat _ 7 [55] 14 I7). }
  split; [reflexivity|]. split; [apply (written_repeat _ 7 number_ex 3 D7)|]. split; reflexivity.
Qed.
Example C84_missing_E_nonvacuous : mantissa_text [49; 46; 50] /\ exponent_text [45; 49; 48; 49] /\ no_number 78.
Proof.
  split; [exists [], [49], [46; 50]; split; [left; reflexivity|]; split; [repeat constructor; unfold digit; lia|]; split; [right; exists [50]; split; [reflexivity|repeat constructor; unfold digit; lia]|]; split; [exists 49; split; [left; reflexivity|unfold digit; lia]|reflexivity]|].
  split; [exists 45, [49; 48; 49]; split; [right; reflexivity|]; split; [discriminate|]; split; [repeat constructor; unfold digit; lia|reflexivity]|]. unfold no_number, white, digit. cbn. lia.
Qed.
