(** * Properties C24-C31, C62, C63: outgoing spectra and mixtures *)
From Coquelicot Require Import Coquelicot.
From Verif Require Import NumF Base NumR L_Search L_SearchR M_Interp M_PC M_Grid M_Spectra S_Spectra L_Interp2 L_PCR L_Legendre L_Angle L_Spectra L_Spectra2 L_Spectra3 L_Spectra4 L_Spectra5 L_SpectraF L_Spectra6.
From Coq Require Import Reals List Lra Lia. Import ListNotations.
From Coq Require Import ZifyBool ZifyNat.
Local Open Scope R_scope.

(** ** C24: equiprobable energy bins *)
(** full claim: with n bins (n+1 bounds), xi1 in [0,1) selects bin floor(n*xi1) and no access is out of range. The code multiplies by the number of bounds:
    what it returns is inside some bin, and it is defined exactly below n/(n+1) *)
Theorem C24_energy_in_a_bin_partial : forall energy sets d E ds e ds', @make_ebins R NumR energy sets = Ok d -> (forall b, In b sets -> (0 < sizeZ b < 2 ^ 64)%Z) -> draws01 ds ->
  eb_sample d E ds = Ok (e, ds') -> exists b k, In b sets /\ (0 <= k < sizeZ b - 1)%Z /\ getR b k <= e <= getR b (k + 1).
Proof. exact eb_sample_set. Qed.
Print Assumptions C24_energy_in_a_bin_partial.
Theorem C24_safe_below_partial : forall energy sets d E b xi1 xi2 ds, @make_ebins R NumR energy sets = Ok d -> (0 < sizeZ energy)%Z -> E <= getR energy 0 -> atZ sets 0 = Ok b ->
  (1 < sizeZ b < 2 ^ 64)%Z -> 0 <= xi1 < IZR (sizeZ b - 1) / IZR (sizeZ b) -> 0 <= xi2 < 1 -> exists e k, eb_sample d E (xi1 :: xi2 :: ds) = Ok (e, ds) /\
    (0 <= k < sizeZ b - 1)%Z /\ IZR k <= IZR (sizeZ b) * xi1 < IZR k + 1 /\ getR b k <= e <= getR b (k + 1).
Proof.
  intros energy sets d E b xi1 xi2 ds Mk L HE Hb Lb H1 H2. assert (Hn : 0 < IZR (sizeZ b)) by (apply IZR_lt; lia).
  assert (G : IZR (sizeZ b) * xi1 < IZR (sizeZ b - 1)). { replace (IZR (sizeZ b - 1)) with (IZR (sizeZ b) * (IZR (sizeZ b - 1) / IZR (sizeZ b))) by (field; lra). apply Rmult_lt_compat_l; lra. }
  assert (X1 : 0 <= xi1 < 1). { split; [lra|]. rewrite minus_IZR in G. nra. }
  destruct (bin_index b xi1 ltac:(lia) X1) as (k & _ & K & P). assert (k < sizeZ b - 1)%Z by (apply lt_IZR; lra).
  rewrite (eb_first energy sets d E b xi1 xi2 ds Mk L HE Hb), (sample_bins_ok b xi1 xi2 k) by (try assumption; lia). cbn [bind]. eexists _, k. split; [reflexivity|]. split; [lia|]. split; [exact K|].
  apply make_ebins_spec in Mk as (_ & _ & I & _). specialize (I b (atZ_In _ _ _ Hb) k (k + 1)%Z ltac:(lia) ltac:(lia) ltac:(lia)). nra.
Qed.
Print Assumptions C24_safe_below_partial.
Theorem C24_out_of_range_refuted : forall energy sets d E b xi1 xi2 ds, @make_ebins R NumR energy sets = Ok d -> (0 < sizeZ energy)%Z -> E <= getR energy 0 -> atZ sets 0 = Ok b ->
  (0 < sizeZ b < 2 ^ 64)%Z -> IZR (sizeZ b - 1) / IZR (sizeZ b) <= xi1 < 1 -> eb_sample d E (xi1 :: xi2 :: ds) = UB.
Proof. intros energy sets d E b xi1 xi2 ds Mk L HE Hb Lb H. rewrite (eb_first energy sets d E b xi1 xi2 ds Mk L HE Hb), sample_bins_ub by assumption. reflexivity. Qed.
Print Assumptions C24_out_of_range_refuted.
(** two bins [0,1] and [1,2]: xi1 = 2/5 < 1/2 belongs to the first, the code returns an energy of the second *)
Theorem C24_wrong_bin_refuted : exists d, @make_ebins R NumR [1] [[0; 1; 2]] = Ok d /\ eb_sample d 1 [2 / 5; 1 / 2] = Ok (3 / 2, []).
Proof.
  assert (I : L_SearchR.increasing [0; 1; 2]) by (apply is_sorted_increasing; reval; reflexivity). assert (I1 : L_SearchR.increasing [1]) by (apply is_sorted_increasing; reval; reflexivity).
  exists (mkEB [1] [[0; 1; 2]]). assert (Mk : @make_ebins R NumR [1] [[0; 1; 2]] = Ok (mkEB [1] [[0; 1; 2]])). { apply make_ebins_spec. repeat split; [exact I1|]. intros b [<-|[]]. exact I. } split; [exact Mk|].
  rewrite (eb_first [1] [[0; 1; 2]] _ 1 [0; 1; 2] (2 / 5) (1 / 2) [] Mk); [|cbn; lia|getz; lra|reflexivity]. rewrite (sample_bins_ok [0; 1; 2] (2 / 5) (1 / 2) 1); [|cbn; lia|lra|cbn; lra|cbn; lia]. cbn [bind]. change (1 + 1)%Z with 2%Z. getz. do 2 f_equal. lra.
Qed.
Print Assumptions C24_wrong_bin_refuted.
Theorem C24_pdf_normalised : forall energy sets d E f lo hi, @make_ebins R NumR energy sets = Ok d -> (0 < sizeZ energy)%Z ->
  (forall b, In b sets -> strictly_increasing b /\ (1 < sizeZ b)%Z /\ lo <= getR b 0 /\ getR b (sizeZ b - 1) <= hi) -> computes (eb_pdf d E) f -> is_RInt f lo hi 1.
Proof. intros. eapply eb_pdf_total; eassumption. Qed.
Print Assumptions C24_pdf_normalised.
(** which set of bins is used: between two incident energies the upper one exactly when the first draw is at most the interpolation fraction, and the density is the same mixture;
    outside the incident energies, the first or the last set with no draw spent. The single-set distributions d1, d2 are those of C24_safe_below_partial. *)
Theorem C24_between_energies : forall energy sets d E l b1 b2 d1 d2 xi ds, @make_ebins R NumR energy sets = Ok d -> (0 <= l < sizeZ energy - 1)%Z -> getR energy l < E <= getR energy (l + 1) ->
  atZ sets l = Ok b1 -> atZ sets (l + 1) = Ok b2 -> @make_ebins R NumR [0] [b1] = Ok d1 -> @make_ebins R NumR [0] [b2] = Ok d2 ->
  let f := (E - getR energy l) / (getR energy (l + 1) - getR energy l) in
  (xi <= f -> eb_sample d E (xi :: ds) = eb_sample d2 0 ds) /\ (f < xi -> eb_sample d E (xi :: ds) = eb_sample d1 0 ds) /\
  (forall x p1 p2, eb_pdf d1 0 x = Ok p1 -> eb_pdf d2 0 x = Ok p2 -> eb_pdf d E x = Ok ((1 - f) * p1 + f * p2)).
Proof. exact eb_between. Qed.
Print Assumptions C24_between_energies.
Theorem C24_outside_energies : forall energy sets d E i b d1 ds x, @make_ebins R NumR energy sets = Ok d -> (0 < sizeZ energy)%Z ->
  (i = 0%Z /\ E <= getR energy 0 \/ i = (sizeZ energy - 1)%Z /\ getR energy (sizeZ energy - 1) < E) -> atZ sets i = Ok b -> @make_ebins R NumR [0] [b] = Ok d1 ->
  eb_sample d E ds = eb_sample d1 0 ds /\ eb_pdf d E x = eb_pdf d1 0 x.
Proof. exact eb_outside. Qed.
Print Assumptions C24_outside_energies.
(** GeneralEvaporation: E' = x * theta(E), x from the same defective selection *)
Theorem C24_general_evaporation_partial : forall temp bounds d E t xi1 xi2 ds e ds', @make_gevap R NumR temp bounds = Ok d -> temp E = Ok t -> 0 < t -> (0 < sizeZ bounds < 2 ^ 64)%Z -> 0 <= xi1 < 1 -> 0 <= xi2 < 1 ->
  ge_sample d E (xi1 :: xi2 :: ds) = Ok (e, ds') -> exists k, (0 <= k < sizeZ bounds - 1)%Z /\ t * getR bounds k <= e <= t * getR bounds (k + 1).
Proof.
  intros temp bounds d E t xi1 xi2 ds e ds' Mk Ht Pt L H1 H2 H. apply make_gevap_spec in Mk as [I ->]. rewrite (ge_sample_eq temp bounds E t xi1 xi2 ds Ht) in H. apply bind_ok in H as (x & Hx & H). apply Ok_eq in H.
  assert (x * t = e) by congruence. apply sample_bins_in in Hx as (k & K & _ & B); [|assumption..]. exists k. split; [exact K|]. nra.
Qed.
Print Assumptions C24_general_evaporation_partial.
Theorem C24_general_evaporation_refuted : forall temp bounds d E t xi1 xi2 ds, @make_gevap R NumR temp bounds = Ok d -> temp E = Ok t -> (0 < sizeZ bounds < 2 ^ 64)%Z ->
  IZR (sizeZ bounds - 1) / IZR (sizeZ bounds) <= xi1 < 1 -> ge_sample d E (xi1 :: xi2 :: ds) = UB.
Proof. intros temp bounds d E t xi1 xi2 ds Mk Ht L H. apply make_gevap_spec in Mk as [I ->]. rewrite (ge_sample_eq temp bounds E t xi1 xi2 ds Ht), sample_bins_ub by assumption. reflexivity. Qed.
Print Assumptions C24_general_evaporation_refuted.
Theorem C24_general_evaporation_pdf : forall temp bounds d E t f, @make_gevap R NumR temp bounds = Ok d -> temp E = Ok t -> 0 < t -> strictly_increasing bounds -> (1 < sizeZ bounds)%Z ->
  computes (ge_pdf d E) f -> is_RInt f (t * getR bounds 0) (t * getR bounds (sizeZ bounds - 1)) 1.
Proof. intros temp bounds d E t f Mk Ht Pt S L F. apply make_gevap_spec in Mk as [I ->]. exact (ge_total temp bounds E t f Ht Pt S L F). Qed.
Print Assumptions C24_general_evaporation_pdf.
Theorem C24_constructors_check : (forall energy sets d, @make_ebins R NumR energy sets = Ok d -> L_SearchR.increasing energy /\ length energy = length sets /\ (forall b, In b sets -> L_SearchR.increasing b)) /\
  (forall temp bounds d, @make_gevap R NumR temp bounds = Ok d -> L_SearchR.increasing bounds).
Proof. split; [intros energy sets d H; apply make_ebins_spec in H; tauto|intros temp bounds d H; apply make_gevap_spec in H; tauto]. Qed.
Print Assumptions C24_constructors_check.
Example C24_between_nonvacuous : exists d d1 d2, @make_ebins R NumR [1; 3] [[0; 1]; [4; 5]] = Ok d /\ @make_ebins R NumR [0] [[0; 1]] = Ok d1 /\ @make_ebins R NumR [0] [[4; 5]] = Ok d2 /\
  getR [1; 3] 0 < 2 <= getR [1; 3] 1 /\ atZ [[0; 1]; [4; 5]] 0 = Ok [0; 1] /\ atZ [[0; 1]; [4; 5]] 1 = Ok [4; 5].
Proof. exists (mkEB [1; 3] [[0; 1]; [4; 5]]), (mkEB [0] [[0; 1]]), (mkEB [0] [[4; 5]]). unfold make_ebins. cbn. rdec. cbn. change (getR [1; 3] 0) with 1. change (getR [1; 3] 1) with 3. repeat split; try reflexivity; try lra. change (Pos.to_nat 1) with 1%nat. cbv iota. lra. Qed.
Example C24_nonvacuous : strictly_increasing [0; 1; 2] /\ (1 < sizeZ [0; 1; 2] < 2 ^ 64)%Z /\ 0 <= 1 / 2 < IZR (sizeZ [0; 1; 2] - 1) / IZR (sizeZ [0; 1; 2]).
Proof. split; [intros i j H1 H2 H3; change (sizeZ [0; 1; 2]) with 3%Z in H3; assert (i = 0 \/ i = 1)%Z as [-> | ->] by lia; assert (j = 1 \/ j = 2)%Z as [-> | ->] by lia; try lia; getz; lra|]. split; [cbn; lia|]. change (sizeZ [0; 1; 2]) with 3%Z. change (3 - 1)%Z with 2%Z. lra. Qed.

(** ** C25: restriction energy *)
(** any arithmetic, any random sequence: an accepted energy e satisfies 0 <= e and e <= E - U as the machine compares them *)
Theorem C25_range_any_arithmetic_partial : forall T (N : Num T) E ds e ds',
  (forall temp U, mw_sample temp U E ds = Ok (e, ds') -> nleb (nofZ 0) e = true /\ nleb e (E -~ U)%num = true) /\
  (forall temp U, ev_sample temp U E ds = Ok (e, ds') -> nleb (nofZ 0) e = true /\ nleb e (E -~ U)%num = true) /\
  (forall d, w_sample d E ds = Ok (e, ds') -> nleb (nofZ 0) e = true /\ nleb e (E -~ w_U d)%num = true).
Proof. intros T N E ds e ds'. split; [|split]; intros; [eapply mw_range|eapply ev_range|eapply w_range]; eassumption. Qed.
Print Assumptions C25_range_any_arithmetic_partial.
(** hence over the reals *)
Theorem C25_range_partial : forall E ds e ds',
  (forall temp U, mw_sample temp U E ds = Ok (e, ds') -> 0 <= e <= E - U) /\
  (forall temp U, ev_sample temp U E ds = Ok (e, ds') -> 0 <= e <= E - U) /\
  (forall d, w_sample d E ds = Ok (e, ds') -> 0 <= e <= E - w_U d).
Proof.
  intros E ds e ds'. split; [|split]; intros; [assert (Q := mw_range _ _ _ _ _ _ H)|assert (Q := ev_range _ _ _ _ _ _ H)|assert (Q := w_range _ _ _ _ _ H)]; destruct Q as [Q1 Q2]; change (@nleb R NumR) with Rleb in *; apply Rleb_true in Q1, Q2; split; assumption.
Qed.
Print Assumptions C25_range_partial.
(** each turn of the loop uses fresh draws, accepts the candidate exactly when it is in range, and otherwise starts again *)
Theorem C25_rejection_step : forall temp U E t, temp E = Ok t -> forall x1 x2 x3 ds,
  (let c := cos (PI * x3 / 2) in let e := - t * (ln x1 + ln x2 * c * c) in (0 <= e <= E - U -> mw_sample temp U E (x1 :: x2 :: x3 :: ds) = Ok (e, ds)) /\ (~ 0 <= e <= E - U -> mw_sample temp U E (x1 :: x2 :: x3 :: ds) = mw_sample temp U E ds)) /\
  (let g := 1 - exp (- ((E - U) / t)) in let e := - t * ln ((1 - g * x1) * (1 - g * x2)) in (0 <= e <= E - U -> ev_sample temp U E (x1 :: x2 :: ds) = Ok (e, ds)) /\ (~ 0 <= e <= E - U -> ev_sample temp U E (x1 :: x2 :: ds) = ev_sample temp U E ds)).
Proof.
  intros temp U E t Ht x1 x2 x3 ds.
  assert (A : forall e, (0 <= e <= E - U -> @accept R NumR U E e = true) /\ (~ 0 <= e <= E - U -> @accept R NumR U E e = false)).
  { intros e. unfold accept. change (@nleb R NumR) with Rleb. change (@nofZ R NumR 0) with 0. change (@nsub R NumR E U) with (E - U). split; intros H; destruct (Rleb_spec 0 e), (Rleb_spec e (E - U)); try reflexivity; lra. }
  split; cbv zeta.
  - rewrite (mw_step temp U E t x1 x2 x3 ds Ht). cbv zeta. pose (e := - t * (ln x1 + ln x2 * cos (PI * x3 / 2) * cos (PI * x3 / 2))). fold e. match goal with |- context [@accept R NumR ?u E ?x] => change x with e end. destruct (A e) as [A1 A2]. split; intros H; [rewrite A1 by exact H|rewrite A2 by exact H]; reflexivity.
  - rewrite (ev_step temp U E t x1 x2 ds Ht). cbv zeta. pose (e := - t * ln ((1 - (1 - exp (- ((E - U) / t))) * x1) * (1 - (1 - exp (- ((E - U) / t))) * x2))). fold e. match goal with |- context [@accept R NumR ?u E ?x] => change x with e end. destruct (A e) as [A1 A2]. split; intros H; [rewrite A1 by exact H|rewrite A2 by exact H]; reflexivity.
Qed.
Print Assumptions C25_rejection_step.
Theorem C25_watt_step : forall d E a b, w_a d E = Ok a -> w_b d E = Ok b -> forall x1 x2 x3 x4 ds,
  let c := cos (PI * x3 / 2) in let w := - a * (ln x1 + ln x2 * c * c) in let e := w + 1 / 4 * a * a * b + (2 * x4 - 1) * sqrt (a * a * b * w) in
  (0 <= e <= E - w_U d -> w_sample d E (x1 :: x2 :: x3 :: x4 :: ds) = Ok (e, ds)) /\ (~ 0 <= e <= E - w_U d -> w_sample d E (x1 :: x2 :: x3 :: x4 :: ds) = w_sample d E ds).
Proof.
  intros d E a b Ha Hb x1 x2 x3 x4 ds. cbv zeta. rewrite (w_step d E a b x1 x2 x3 x4 ds Ha Hb). cbv zeta.
  assert (A : forall e, (0 <= e <= E - w_U d -> @accept R NumR (w_U d) E e = true) /\ (~ 0 <= e <= E - w_U d -> @accept R NumR (w_U d) E e = false)).
  { intros e. unfold accept. change (@nleb R NumR) with Rleb. change (@nofZ R NumR 0) with 0. change (@nsub R NumR E (w_U d)) with (E - w_U d). split; intros H; destruct (Rleb_spec 0 e), (Rleb_spec e (E - w_U d)); try reflexivity; lra. }
  pose (w := - a * (ln x1 + ln x2 * cos (PI * x3 / 2) * cos (PI * x3 / 2))). pose (e := w + 1 / 4 * a * a * b + (2 * x4 - 1) * sqrt (a * a * b * w)). fold w. fold e. match goal with |- context [@accept R NumR ?u E ?x] => change x with e end. destruct (A e) as [A1 A2]. split; intros H; [rewrite A1 by exact H|rewrite A2 by exact H]; reflexivity.
Qed.
Print Assumptions C25_watt_step.
(** pdf: zero outside [0,E-U]; nonnegative inside for Evaporation and Watt *)
Theorem C25_pdf_zero_outside : forall E x,
  (forall temp U, x < 0 \/ E - U < x -> @mw_pdf R NumR temp U E x = Ok 0 /\ @ev_pdf R NumR temp U E x = Ok 0) /\
  (forall d, x < 0 \/ E - w_U d < x -> @w_pdf R NumR d E x = Ok 0).
Proof. intros E x. split; intros; [split; [apply mw_pdf_outside|apply ev_pdf_outside]|apply w_pdf_outside]; assumption. Qed.
Print Assumptions C25_pdf_zero_outside.
Theorem C25_pdf_nonnegative_partial : forall E x,
  (forall temp U t, temp E = Ok t -> 0 < t -> 0 < E - U -> exists p, @ev_pdf R NumR temp U E x = Ok p /\ 0 <= p) /\
  (forall d a b, w_a d E = Ok a -> w_b d E = Ok b -> 0 < a -> 0 < b -> 0 < E - w_U d -> exists p, @w_pdf R NumR d E x = Ok p /\ 0 <= p).
Proof.
  intros E x. split.
  - intros temp U t Ht Pt D. destruct (Rlt_dec x 0); [exists 0; split; [apply ev_pdf_outside; tauto|lra]|]. destruct (Rlt_dec (E - U) x); [exists 0; split; [apply ev_pdf_outside; tauto|lra]|].
    eexists. split; [apply (ev_pdf_inside temp U E t x Ht); lra|]. pose proof (ev_norm_pos t (E - U) Pt D). apply Rmult_le_pos; [apply Rmult_le_pos; [lra|left; apply Rinv_0_lt_compat; assumption]|left; apply exp_pos].
  - intros d a b Ha Hb Pa Pb D. destruct (Rlt_dec x 0); [exists 0; split; [apply w_pdf_outside; tauto|lra]|]. destruct (Rlt_dec (E - w_U d) x); [exists 0; split; [apply w_pdf_outside; tauto|lra]|].
    eexists. split; [apply (w_pdf_inside d E a b x Ha Hb); lra|]. pose proof (w_norm_pos a b (E - w_U d) Pa Pb D). apply Rmult_le_pos; [left; apply Rdiv_lt_0_compat; [apply exp_pos|assumption]|].
    destruct (Req_dec (sqrt (b * x)) 0) as [->|Q]; [rewrite sinh_0; lra|]. rewrite <- sinh_0. left. apply sinh_lt. pose proof (sqrt_pos (b * x)). lra.
Qed.
Print Assumptions C25_pdf_nonnegative_partial.
(** Maxwellian: the density is negative on the whole range when E - U is a quarter of the temperature *)
Theorem C25_maxwellian_negative_refuted : forall temp U E t x, temp E = Ok t -> 0 < t -> E - U = t / 4 -> 0 < x <= E - U -> exists p, @mw_pdf R NumR temp U E x = Ok p /\ p < 0.
Proof.
  intros temp U E t x Ht Pt D Hx. eexists. split; [apply (mw_pdf_inside temp U E t x Ht Pt); lra|]. rewrite D. pose proof (mw_code_neg t Pt) as Q. pose proof (exp_pos (- x / t)). assert (0 < sqrt x) by (apply sqrt_lt_R0; lra).
  assert (/ mw_code t (t / 4) < 0) by (apply Rinv_lt_0_compat, Q). unfold Rdiv at 1. assert (sqrt x * / mw_code t (t / 4) < 0) by nra. nra.
Qed.
Print Assumptions C25_maxwellian_negative_refuted.
(** below the restriction energy the loops never return *)
Theorem C25_below_threshold_refuted : forall E ds,
  (forall temp U t, temp E = Ok t -> E < U -> @mw_sample R NumR temp U E ds = NoDraw /\ @ev_sample R NumR temp U E ds = NoDraw) /\
  (forall d a b, w_a d E = Ok a -> w_b d E = Ok b -> E < w_U d -> @w_sample R NumR d E ds = NoDraw).
Proof. intros E ds. split; intros; [split; [eapply mw_never|eapply ev_never]|eapply w_never]; eassumption. Qed.
Print Assumptions C25_below_threshold_refuted.
Example C25_nonvacuous : exists e, @ev_sample R NumR (fun _ => Ok 1) 0 1 [0; 0] = Ok (e, []).
Proof.
  rewrite (ev_step (fun _ => Ok 1) 0 1 1 0 0 [] eq_refl). cbv zeta. unfold accept. change (@nleb R NumR) with Rleb. change (@nofZ R NumR) with IZR. rnum.
  assert (E : - (1) * ln ((1 - (1 - exp (- ((1 - 0) / 1))) * 0) * (1 - (1 - exp (- ((1 - 0) / 1))) * 0)) = 0). { replace ((1 - (1 - exp (- ((1 - 0) / 1))) * 0) * (1 - (1 - exp (- ((1 - 0) / 1))) * 0)) with 1 by ring. rewrite ln_1. ring. }
  rewrite E. replace (Rleb 0 0) with true by (symmetry; apply Rleb_true; lra). replace (Rleb 0 (1 - 0)) with true by (symmetry; apply Rleb_true; lra). exists 0. reflexivity.
Qed.

(** ** C26: the evaporation density is normalised *)
Theorem C26_evaporation_normalised : forall temp U E t f, temp E = Ok t -> 0 < t -> 0 < E - U -> computes (ev_pdf temp U E) f -> is_RInt f 0 (E - U) 1.
Proof.
  intros temp U E t f Ht Pt D F. pose proof (ev_norm_pos t (E - U) Pt D) as P. apply is_RInt_ext with (fun x => / ev_norm t (E - U) * (x * exp (- x / t))).
  - rewrite Rmin_left, Rmax_right by lra. intros x Hx. specialize (F x). rewrite (ev_pdf_inside temp U E t x Ht) in F by lra. apply Ok_eq in F. rewrite <- F. match goal with |- ?a = ?b => change (@eq R a b) end. unfold Rdiv. ring.
  - eapply iR_val; [|apply iR_scal, ev_integral, Pt]. field. lra.
Qed.
Print Assumptions C26_evaporation_normalised.
Theorem C26_defined : forall temp U E t, temp E = Ok t -> exists f, computes (ev_pdf temp U E) f.
Proof. intros temp U E t Ht. exists (fun x => if (Rlt_dec x 0) then 0 else if Rlt_dec (E - U) x then 0 else x / ev_norm t (E - U) * exp (- x / t)). intros x. destruct (Rlt_dec x 0); [apply ev_pdf_outside; tauto|]. destruct (Rlt_dec (E - U) x); [apply ev_pdf_outside; tauto|]. apply ev_pdf_inside; [exact Ht|lra]. Qed.
Print Assumptions C26_defined.
Example C26_nonvacuous : exists f, computes (ev_pdf (fun _ => Ok 2) 1 4) f /\ is_RInt f 0 (4 - 1) 1.
Proof.
  destruct (C26_defined (fun _ => Ok 2) 1 4 2 eq_refl) as (f & F). exists f. split; [exact F|]. apply (C26_evaporation_normalised (fun _ => Ok 2) 1 4 2); [reflexivity|lra|lra|exact F].
Qed.

(** ** C62: Maxwellian and Watt densities *)
Theorem C62_watt_normalised_partial : forall d E a b f, w_a d E = Ok a -> w_b d E = Ok b -> 0 < a -> 0 < b -> 0 < E - w_U d -> computes (w_pdf d E) f -> is_RInt f 0 (E - w_U d) 1.
Proof.
  intros d E a b f Ha Hb Pa Pb D F. pose proof (w_norm_pos a b (E - w_U d) Pa Pb D) as P. apply is_RInt_ext with (fun x => / w_norm a b (E - w_U d) * (exp (- x / a) * sinh (sqrt (b * x)))).
  - rewrite Rmin_left, Rmax_right by lra. intros x Hx. specialize (F x). rewrite (w_pdf_inside d E a b x Ha Hb) in F by lra. apply Ok_eq in F. rewrite <- F. match goal with |- ?a = ?b => change (@eq R a b) end. unfold Rdiv. ring.
  - eapply iR_val; [|apply iR_scal, w_integral; assumption]. field. lra.
Qed.
Print Assumptions C62_watt_normalised_partial.
(** the integral of the Maxwellian density: the right normalisation has erf(sqrt(du/t)) where the code has erf(du/t) *)
Theorem C62_maxwellian_integral_partial : forall temp U E t f, temp E = Ok t -> 0 < t -> 0 < E - U ->
  let du := E - U in
  let right_norm := sqrt PI / 2 * Rerf (sqrt (du / t)) - sqrt (du / t) * exp (- du / t) in
  let code_norm := sqrt PI / 2 * Rerf (du / t) - sqrt (du / t) * exp (- du / t) in
  code_norm <> 0 -> computes (mw_pdf temp U E) f -> is_RInt f 0 du (right_norm / code_norm).
Proof.
  intros temp U E t f Ht Pt D du rn cn C F. assert (P : 0 < Rpower t (3 / 2)) by (unfold Rpower; apply exp_pos).
  apply is_RInt_ext with (fun x => / mw_code t du * (sqrt x * exp (- x / t))).
  - unfold du. rewrite Rmin_left, Rmax_right by lra. intros x Hx. specialize (F x). rewrite (mw_pdf_inside temp U E t x Ht Pt) in F by lra. apply Ok_eq in F. rewrite <- F. match goal with |- ?a = ?b => change (@eq R a b) end. unfold Rdiv. ring.
  - eapply iR_val; [|apply iR_scal, mw_integral; assumption]. unfold mw_code, mw_true. fold rn cn. fold du rn. field. split; [exact C|lra].
Qed.
Print Assumptions C62_maxwellian_integral_partial.
(** equal to one when E - U equals the temperature *)
Theorem C62_maxwellian_at_temperature_partial : forall temp U E t f, temp E = Ok t -> 0 < t -> E - U = t -> computes (mw_pdf temp U E) f -> is_RInt f 0 (E - U) 1.
Proof.
  intros temp U E t f Ht Pt D F. assert (Q : t / t = 1) by (field; lra). assert (C : 0 < mw_true t t).
  { pose proof (mw_integral t t Pt Pt) as H. apply (is_RInt_unique (V := R_CompleteNormedModule)) in H. rewrite <- H. apply RInt_gt_0; [exact Pt| |].
    - intros x Hx. apply Rmult_lt_0_compat; [apply sqrt_lt_R0; lra|apply exp_pos].
    - intros x _. cont. }
  assert (Cn : sqrt PI / 2 * Rerf (t / t) - sqrt (t / t) * exp (- t / t) <> 0). { unfold mw_true in C. rewrite Q in *. rewrite sqrt_1 in *. intros Z. rewrite Z in C. lra. }
  pose proof (C62_maxwellian_integral_partial temp U E t f Ht Pt ltac:(lra)) as I. cbv zeta in I. rewrite D in I. specialize (I Cn F). rewrite D. eapply iR_val; [|exact I]. revert Cn. rewrite Q, sqrt_1. intros Cn. apply Rinv_r, Cn.
Qed.
Print Assumptions C62_maxwellian_at_temperature_partial.
(** the integral over the range is negative, not one, when E - U = t/4 *)
Theorem C62_maxwellian_refuted : forall temp U E t f v, temp E = Ok t -> 0 < t -> E - U = t / 4 -> computes (mw_pdf temp U E) f -> is_RInt f 0 (E - U) v -> v < 0.
Proof.
  intros temp U E t f v Ht Pt D F I. pose proof (mw_code_neg t Pt) as Q.
  assert (J : is_RInt f 0 (E - U) (/ mw_code t (t / 4) * mw_true t (t / 4))).
  { apply is_RInt_ext with (fun x => / mw_code t (t / 4) * (sqrt x * exp (- x / t))).
    - rewrite Rmin_left, Rmax_right by lra. intros x Hx. specialize (F x). rewrite (mw_pdf_inside temp U E t x Ht Pt) in F by lra. apply Ok_eq in F. rewrite D in F. rewrite <- F. match goal with |- ?a = ?b => change (@eq R a b) end. unfold Rdiv. ring.
    - rewrite D. apply iR_scal, mw_integral; lra. }
  assert (T : 0 < mw_true t (t / 4)).
  { pose proof (mw_integral t (t / 4) Pt ltac:(lra)) as H. apply (is_RInt_unique (V := R_CompleteNormedModule)) in H. rewrite <- H. apply RInt_gt_0; [lra| |].
    - intros x Hx. apply Rmult_lt_0_compat; [apply sqrt_lt_R0; lra|apply exp_pos].
    - intros x _. cont. }
  apply (is_RInt_unique (V := R_CompleteNormedModule)) in I, J. assert (E1 : v = / mw_code t (t / 4) * mw_true t (t / 4)) by congruence. rewrite E1. assert (/ mw_code t (t / 4) < 0) by (apply Rinv_lt_0_compat, Q). nra.
Qed.
Print Assumptions C62_maxwellian_refuted.
Theorem C62_densities_defined : (forall temp U E t, temp E = Ok t -> 0 < t -> exists f, computes (mw_pdf temp U E) f) /\ (forall d E a b, w_a d E = Ok a -> w_b d E = Ok b -> exists f, computes (w_pdf d E) f).
Proof.
  split.
  - intros temp U E t Ht Pt. exists (fun x => if (Rlt_dec x 0) then 0 else if Rlt_dec (E - U) x then 0 else sqrt x / mw_code t (E - U) * exp (- x / t)). intros x. destruct (Rlt_dec x 0); [apply mw_pdf_outside; tauto|]. destruct (Rlt_dec (E - U) x); [apply mw_pdf_outside; tauto|]. apply mw_pdf_inside; [exact Ht|exact Pt|lra].
  - intros d E a b Ha Hb. exists (fun x => if (Rlt_dec x 0) then 0 else if Rlt_dec (E - w_U d) x then 0 else exp (- x / a) / w_norm a b (E - w_U d) * sinh (sqrt (b * x))). intros x. destruct (Rlt_dec x 0); [apply w_pdf_outside; tauto|]. destruct (Rlt_dec (E - w_U d) x); [apply w_pdf_outside; tauto|]. apply w_pdf_inside; [exact Ha|exact Hb|lra].
Qed.
Print Assumptions C62_densities_defined.
Example C62_nonvacuous : (exists f, computes (w_pdf (mkWatt (fun _ => Ok 1) (fun _ => Ok 2) (1/2)) 3) f /\ is_RInt f 0 (3 - 1/2) 1) /\
  (exists f, computes (mw_pdf (fun _ => Ok 2) 1 3) f /\ is_RInt f 0 (3 - 1) 1).
Proof.
  destruct C62_densities_defined as [D1 D2]. split.
  - destruct (D2 (mkWatt (fun _ => Ok 1) (fun _ => Ok 2) (1/2)) 3 1 2 eq_refl eq_refl) as (f & F). exists f. split; [exact F|]. apply (C62_watt_normalised_partial (mkWatt (fun _ => Ok 1) (fun _ => Ok 2) (1/2)) 3 1 2); try reflexivity; try exact F; cbn; lra.
  - destruct (D1 (fun _ => Ok 2) 1 3 2 eq_refl ltac:(lra)) as (f & F). exists f. split; [exact F|]. apply (C62_maxwellian_at_temperature_partial (fun _ => Ok 2) 1 3 2); [reflexivity|lra|lra|exact F].
Qed.

(** ** C27: Watt accessors *)
Theorem C27_accessors_refuted : forall a b U, let w := @mkWatt R a b U in watt_a w = b /\ watt_b w = a.
Proof. intros. split; reflexivity. Qed.
Print Assumptions C27_accessors_refuted.
Theorem C27_accessors_distinguishable_refuted : exists w : watt R, w_a w 1 = Ok 1 /\ watt_a w 1 = Ok 2 /\ w_b w 1 = Ok 2 /\ watt_b w 1 = Ok 1.
Proof. exists (mkWatt (fun _ => Ok 1) (fun _ => Ok 2) 0). repeat split. Qed.
Print Assumptions C27_accessors_distinguishable_refuted.
(** exchanging the accessors gives the functions used by sampling *)
Theorem C27_exchanged_partial : forall T (N : Num T) (w : watt T) E ds, w_sample w E ds = w_sample (mkWatt (watt_b w) (watt_a w) (w_U w)) E ds.
Proof. intros T N [a b U] E ds. reflexivity. Qed.
Print Assumptions C27_exchanged_partial.

(** ** C28: level inelastic scattering, discrete photons, N-body *)
Theorem C28_level : forall Q A d, @make_level R NumR Q A = Ok d -> exists c1 c2, c1 = (A + 1) / A * Rabs Q /\ c2 = (A / (A + 1)) ^ 2 /\ 0 < c2 < 1 /\ 0 <= c1 /\
  (forall E ds, lv_sample d E ds = Ok (c2 * (E - c1), ds)) /\ (forall E1 E2, E1 <= E2 -> c2 * (E1 - c1) <= c2 * (E2 - c1)) /\ (forall E, c1 <= E -> 0 <= c2 * (E - c1) <= E).
Proof.
  intros Q A d H. destruct (level_props Q A d H) as (c1 & c2 & H1 & H2 & H3 & H4 & H5). exists c1, c2. repeat (split; [assumption|]). split; [intros E1 E2 HE; apply Rmult_le_compat_l; lra|]. intros E HE. split; nra.
Qed.
Print Assumptions C28_level.
Theorem C28_level_checks : forall Q A, (A <= 0 -> @make_level R NumR Q A = Throw) /\ (0 < A -> exists d, @make_level R NumR Q A = Ok d).
Proof. intros Q A. split; [apply make_level_throw|]. intros H. eexists. apply make_level_spec. split; [exact H|reflexivity]. Qed.
Print Assumptions C28_level_checks.
Theorem C28_discrete_photon : forall lp Eg A d, @make_dphoton R NumR lp Eg A = Ok d -> (lp = 0 \/ lp = 1 \/ lp = 2)%Z /\ 0 < Eg /\ 0 < A /\
  forall E ds, dp_sample d E ds = Ok (if Z.eq_dec lp 2 then Eg + A / (A + 1) * E else Eg, ds).
Proof.
  intros lp Eg A d H. apply make_dphoton_spec in H as (L & P1 & P2 & ->). repeat (split; [assumption|]). intros E ds. rewrite dp_value. destruct (Z.eq_dec lp 0), (Z.eq_dec lp 1), (Z.eq_dec lp 2); try lia; reflexivity.
Qed.
Print Assumptions C28_discrete_photon.
(** N-body: for draws strictly inside (0,1) *)
Theorem C28_nbody_range_partial : forall n Ap A Q d E ds mu e ds', make_nbody n Ap A Q = Ok d -> 0 <= (Ap - 1) / Ap * (A / (A + 1) * E + Q) -> draws_open ds -> nb_sample d E ds = Ok ((mu, e), ds') ->
  -1 <= mu < 1 /\ 0 <= e <= (Ap - 1) / Ap * (A / (A + 1) * E + Q).
Proof. intros n Ap A Q d E ds mu e ds' Mk M D H. apply make_nbody_spec in Mk as (_ & _ & _ & ->). exact (nb_range (mkNB n Ap A Q) E ds mu e ds' D M H). Qed.
Print Assumptions C28_nbody_range_partial.
Theorem C28_nbody_checks : forall n Ap A Q, (~ ((n = 3 \/ n = 4 \/ n = 5)%Z /\ 0 < Ap /\ 0 < A) -> @make_nbody R NumR n Ap A Q = Throw) /\
  ((n = 3 \/ n = 4 \/ n = 5)%Z -> 0 < Ap -> 0 < A -> exists d, @make_nbody R NumR n Ap A Q = Ok d).
Proof. intros. split; [apply make_nbody_throw|]. intros H1 H2 H3. eexists. apply make_nbody_spec. split; [exact H1|split; [exact H2|split; [exact H3|reflexivity]]]. Qed.
Print Assumptions C28_nbody_checks.
Theorem C28_nbody_draws : forall n Ap A Q d E ds, make_nbody n Ap A Q = Ok d -> let k := if Z.eq_dec n 5 then 10%nat else 7%nat in (k <= length ds)%nat ->
  exists mu e ds', @nb_sample R NumR d E ds = Ok ((mu, e), ds') /\ length ds = (k + length ds')%nat.
Proof.
  intros n Ap A Q d E ds Mk k L. apply make_nbody_spec in Mk as (Hn & _ & _ & ->). assert (K : nb_draws n = k) by (unfold nb_draws, k; destruct Hn as [-> | [-> | ->]]; reflexivity). destruct (nb_total (mkNB n Ap A Q) E ds) as (mu & e & ds' & H1 & H2); [cbn [nb_n]; rewrite K; exact L|].
  cbn [nb_n] in H2. rewrite K in H2. exists mu, e, ds'. split; assumption.
Qed.
Print Assumptions C28_nbody_draws.
(** binary64: one draw equal to zero gives a NaN energy (log(0) = -inf), although rng() returns values in [0,1) *)
Theorem C28_nbody_zero_draw_refuted : forall lm d E, lm_log lm 0%float = neg_infinity -> lm_log lm 0.5%float = ln_half_b64 -> lm_cos lm 0%float = 1%float -> lm_pi lm = 0x1.921fb54442d18p+1%float ->
  @nb_Emax float (NumF lm) d E = 1%float -> nb_n d = 3%Z ->
  @nb_sample float (NumF lm) d E [0; 0; 0.5; 0; 0.5; 0.5; 0.5]%float = Ok ((0%float, nan), []).
Proof. exact nb_zero_draw. Qed.
Print Assumptions C28_nbody_zero_draw_refuted.
Example C28_zero_draw_nonvacuous : lm_log lm_nb 0%float = neg_infinity /\ lm_log lm_nb 0.5%float = ln_half_b64 /\ lm_cos lm_nb 0%float = 1%float /\ lm_pi lm_nb = 0x1.921fb54442d18p+1%float /\
  exists d, @make_nbody float (NumF lm_nb) 3 2%float 1%float 0%float = Ok d /\ @nb_Emax float (NumF lm_nb) d 4%float = 1%float /\ nb_n d = 3%Z.
Proof. exact nb_hyps_met. Qed.
Example C28_nonvacuous : exists d, @make_nbody R NumR 4 3 1 0 = Ok d /\ 0 <= (3 - 1) / 3 * (1 / (1 + 1) * 2 + 0).
Proof. eexists. split; [apply make_nbody_spec; split; [lia|split; [lra|split; [lra|reflexivity]]]|lra]. Qed.

(** ** C63: the N-body density *)
Theorem C63_nbody_normalised_partial : forall n Ap A Q d E, make_nbody n Ap A Q = Ok d -> let M := (Ap - 1) / Ap * (A / (A + 1) * E + Q) in 0 < M ->
  is_RInt (nb_pdf d E) 0 M (1 / 2) /\ (forall x, 0 <= x < M -> 0 <= nb_pdf d E x).
Proof. intros n Ap A Q d E Mk M P. apply make_nbody_spec in Mk as (Hn & _ & _ & ->). split; [exact (nb_norm (mkNB n Ap A Q) E Hn P)|intros x Hx; exact (nb_pdf_nonneg (mkNB n Ap A Q) E x Hn P Hx)]. Qed.
Print Assumptions C63_nbody_normalised_partial.
Theorem C63_beyond_maximum_refuted : forall Ap A Q d E x, make_nbody 4 Ap A Q = Ok d -> 0 < (Ap - 1) / Ap * (A / (A + 1) * E + Q) < x -> 0 < nb_pdf d E x.
Proof. intros Ap A Q d E x Mk H. apply make_nbody_spec in Mk as (_ & _ & _ & ->). exact (nb4_beyond (mkNB 4 Ap A Q) E x eq_refl H). Qed.
Print Assumptions C63_beyond_maximum_refuted.
Example C63_nonvacuous : exists d, make_nbody 4 3 1 0 = Ok d /\ is_RInt (nb_pdf d 6) 0 2 (1 / 2) /\ 0 < nb_pdf d 6 3.
Proof.
  destruct C28_nonvacuous as (d & Mk & _). exists d. split; [exact Mk|]. assert (E : (3 - 1) / 3 * (1 / (1 + 1) * 6 + 0) = 2) by field. split.
  - destruct (C63_nbody_normalised_partial 4 3 1 0 d 6 Mk) as [H _]; [rewrite E; lra|]. rewrite E in H. exact H.
  - apply (C63_beyond_maximum_refuted 3 1 0 d 6 3 Mk). rewrite E. lra.
Qed.

(** ** C29: mixtures *)
Theorem C29_selects_component : forall ds ps m E pv xi d def q, make_multi ds ps = Ok m -> evaluate_to (md_probs m) E pv -> Forall (fun p => 0 <= p) pv -> (d < length (md_dists m))%nat ->
  cumulative d pv <= xi < cumulative (S d) pv -> md_sample m E (xi :: q) = ae_sample (nth d (md_dists m) def) E q.
Proof.
  intros ds ps m E pv xi d def q Mk Ev Nn Hd Hxi. apply make_multi_spec in Mk as (D & P & _ & _ & L & _ & ->). cbn [md_dists md_probs] in *. unfold md_sample. unfold rbind at 1, draw. cbn [md_dists md_probs].
  apply md_loop_sel with (pv := pv); [exact L|exact Ev|exact Hd| |change (@nofZ R NumR 0) with 0; lra].
  intros j Hj. change (@nofZ R NumR 0) with 0. pose proof (cum_mono pv Nn (S j) d Hj). lra.
Qed.
Print Assumptions C29_selects_component.
(** if the probabilities sum to less than xi (rounding), the last component is used *)
Theorem C29_fallback_last : forall ds ps m E pv xi def q, make_multi ds ps = Ok m -> evaluate_to (md_probs m) E pv -> Forall (fun p => 0 <= p) pv -> cumulative (length (md_dists m)) pv <= xi ->
  md_sample m E (xi :: q) = ae_sample (nth (length (md_dists m) - 1) (md_dists m) def) E q.
Proof.
  intros ds ps m E pv xi def q Mk Ev Nn Hxi. apply make_multi_spec in Mk as (D & P & _ & _ & L & L2 & ->). cbn [md_dists md_probs] in *. unfold md_sample. unfold rbind at 1, draw. cbn [md_dists md_probs].
  rewrite md_loop_last with (pv := pv); [|exact L|exact Ev|].
  - unfold rbind, rlift, backR. rewrite (atZ_nth def) by (unfold sizeZ; lia). cbn [bind]. f_equal. f_equal. f_equal. unfold sizeZ. lia.
  - intros j Hj. change (@nofZ R NumR 0) with 0. pose proof (cum_mono pv Nn (S j) (length D) ltac:(lia)). lra.
Qed.
Print Assumptions C29_fallback_last.
(** the intervals partition [0, total): every draw below the total selects exactly one component, with probability its weight *)
Theorem C29_exactly_one : forall pv xi, Forall (fun p => 0 <= p) pv -> 0 <= xi < cumulative (length pv) pv ->
  exists! d, (d < length pv)%nat /\ cumulative d pv <= xi < cumulative (S d) pv.
Proof.
  intros pv xi Nn H. assert (Ex : forall n, (n <= length pv)%nat -> xi < cumulative n pv -> exists d, (d < n)%nat /\ cumulative d pv <= xi < cumulative (S d) pv).
  { induction n as [|n IH]; intros Hn Hx; [destruct pv; cbn [cumulative] in Hx; lra|]. destruct (Rlt_le_dec xi (cumulative n pv)) as [G|G]; [destruct (IH ltac:(lia) G) as (d & D1 & D2); exists d; split; [lia|exact D2]|exists n; split; [lia|lra]]. }
  destruct (Ex (length pv) (le_n _) ltac:(lra)) as (d & D1 & D2). exists d. split; [split; [exact D1|exact D2]|]. intros d' [D3 D4].
  destruct (Nat.lt_trichotomy d d') as [G|[G|G]]; [|exact G|]; [pose proof (cum_mono pv Nn (S d) d' G)|pose proof (cum_mono pv Nn (S d') d G)]; lra.
Qed.
Print Assumptions C29_exactly_one.
Theorem C29_interval_length : forall pv d, (d < length pv)%nat -> cumulative (S d) pv - cumulative d pv = nth d pv 0.
Proof. intros pv d H. rewrite cum_S by exact H. ring. Qed.
Print Assumptions C29_interval_length.
Theorem C29_pdf_is_mixture : forall ds ps m E pv, make_multi ds ps = Ok m -> evaluate_to (md_probs m) E pv -> forall mu E',
  (forall vs, Forall2 (fun d v => ae_pdf d E mu E' = Ok (Some v)) (md_dists m) vs -> md_pdf m E mu E' = Ok (Some (weighted pv vs))) /\
  (forall vs, Forall2 (fun d v => ae_angle_pdf d E mu = Ok (Some v)) (md_dists m) vs -> md_angle_pdf m E mu = Ok (Some (weighted pv vs))).
Proof.
  intros ds ps m E pv Mk Ev mu E'. apply make_multi_spec in Mk as (D & P & _ & _ & L & L2 & ->). cbn [md_dists md_probs] in *. unfold md_pdf, md_angle_pdf. cbn [md_dists md_probs].
  split; intros vs H; [rewrite (md_sum_some (fun d => ae_pdf d E mu E') E D P pv vs _ H Ev L)|rewrite (md_sum_some (fun d => ae_angle_pdf d E mu) E D P pv vs _ H Ev L)]; change (@nofZ R NumR 0) with 0; rewrite Rplus_0_l; reflexivity.
Qed.
Print Assumptions C29_pdf_is_mixture.
Theorem C29_pdf_absent : forall ds ps m E pv, make_multi ds ps = Ok m -> evaluate_to (md_probs m) E pv -> forall mu E',
  (Forall (fun d => exists o, ae_pdf d E mu E' = Ok o) (md_dists m) -> Exists (fun d => ae_pdf d E mu E' = Ok None) (md_dists m) -> md_pdf m E mu E' = Ok None) /\
  (Forall (fun d => exists o, ae_angle_pdf d E mu = Ok o) (md_dists m) -> Exists (fun d => ae_angle_pdf d E mu = Ok None) (md_dists m) -> md_angle_pdf m E mu = Ok None).
Proof.
  intros ds ps m E pv Mk Ev mu E'. apply make_multi_spec in Mk as (D & P & _ & _ & L & L2 & ->). cbn [md_dists md_probs] in *. unfold md_pdf, md_angle_pdf. cbn [md_dists md_probs].
  split; intros H1 H2; [exact (md_sum_none (fun d => ae_pdf d E mu E') E D P pv _ H1 H2 Ev L)|exact (md_sum_none (fun d => ae_angle_pdf d E mu) E D P pv _ H1 H2 Ev L)].
Qed.
Print Assumptions C29_pdf_absent.
Theorem C29_constructor_checks : forall (ds : list (option (aelaw R))) ps, (length ds <> length ps \/ (length ds < 2)%nat \/ In None ds \/ In None ps) -> make_multi ds ps = Throw.
Proof. exact make_multi_throw. Qed.
Print Assumptions C29_constructor_checks.
Definition law_const (v : R) : aelaw R := mkAE (fun _ => rret (0, v)) (fun _ _ => Ok (Some (1 / 2))) (fun _ _ _ => Ok (Some v)).
Example C29_nonvacuous : exists m, make_multi [Some (law_const 1); Some (law_const 2)] [Some (fun _ => Ok (1 / 4)); Some (fun _ => Ok (3 / 4))] = Ok m /\ evaluate_to (md_probs m) 5 [1 / 4; 3 / 4] /\ md_sample m 5 [1 / 2] = Ok ((0, 2), []).
Proof.
  eexists. split; [reflexivity|]. assert (Ev : evaluate_to [fun _ => Ok (1 / 4); fun _ => Ok (3 / 4)] 5 [1 / 4; 3 / 4]) by (repeat constructor). split; [exact Ev|].
  rewrite (C29_selects_component [Some (law_const 1); Some (law_const 2)] [Some (fun _ => Ok (1 / 4)); Some (fun _ => Ok (3 / 4))] _ 5 [1 / 4; 3 / 4] (1 / 2) 1 (law_const 1) [] eq_refl Ev); [reflexivity|repeat constructor; lra|cbn; lia|cbn; lra].
Qed.

(** ** C30: summed fission *)
(** sampling selects reaction r with probability xs_r / xs_total *)
Theorem C30_sampling_weights_partial : forall d E i x0 x1 x2 x3, get_lower_index (x_grid (fr_xs (sf0 d))) E = Ok i -> contributes (sf0 d) E i x0 -> contributes (sf1 d) E i x1 -> contributes (sf2 d) E i x2 -> contributes (sf3 d) E i x3 ->
  0 <= x0 -> 0 <= x1 -> 0 <= x2 -> 0 <= x3 -> 0 < x0 + x1 + x2 + x3 -> forall xi ds, let t := x0 + x1 + x2 + x3 in
  (xi * t < x0 -> sf_sample d E (xi :: ds) = ae_sample (fr_dist (sf0 d)) E ds) /\
  (x0 <= xi * t < x0 + x1 -> sf_sample d E (xi :: ds) = ae_sample (fr_dist (sf1 d)) E ds) /\
  (x0 + x1 <= xi * t < x0 + x1 + x2 -> sf_sample d E (xi :: ds) = ae_sample (fr_dist (sf2 d)) E ds) /\
  (x0 + x1 + x2 <= xi * t -> sf_sample d E (xi :: ds) = ae_sample (fr_dist (sf3 d)) E ds).
Proof.
  intros d E i x0 x1 x2 x3 Hi H0 H1 H2 H3 N0 N1 N2 N3 P xi ds t. pose proof (sf_sample_eq d E i x0 x1 x2 x3 Hi H0 H1 H2 H3 P xi ds) as S. fold t in S. rewrite S.
  repeat split; intros G; destruct (Rlt_dec (xi * t) x0); try lra; try reflexivity; destruct (Rlt_dec (xi * t) (x0 + x1)); try lra; try reflexivity; destruct (Rlt_dec (xi * t) (x0 + x1 + x2)); try lra; reflexivity.
Qed.
Print Assumptions C30_sampling_weights_partial.
(** the pdf is right when a single reaction contributes *)
Theorem C30_single_contribution_partial : forall d E i x0 v mu E', get_lower_index (x_grid (fr_xs (sf0 d))) E = Ok i -> contributes (sf0 d) E i x0 -> contributes (sf1 d) E i 0 -> contributes (sf2 d) E i 0 -> contributes (sf3 d) E i 0 -> 0 < x0 ->
  (ae_pdf (fr_dist (sf0 d)) E mu E' = Ok (Some v) -> sf_pdf d E mu E' = Ok (Some v)) /\ (ae_angle_pdf (fr_dist (sf0 d)) E mu = Ok (Some v) -> sf_angle_pdf d E mu = Ok (Some v)).
Proof.
  intros d E i x0 v mu E' Hi H0 H1 H2 H3 P. unfold sf_pdf, sf_angle_pdf. split; intros V;
  [rewrite (sf_chain_eq d E i x0 0 0 0 Hi H0 H1 H2 H3 ltac:(lra) (fun l => ae_pdf l E mu E'))|rewrite (sf_chain_eq d E i x0 0 0 0 Hi H0 H1 H2 H3 ltac:(lra) (fun l => ae_angle_pdf l E mu))];
  cbv zeta; destruct (Rlt_dec 0 x0); try lra; rewrite V; cbn [bind]; do 2 f_equal; field; lra.
Qed.
Print Assumptions C30_single_contribution_partial.
(** as soon as a second reaction contributes, the pdf is strictly below the mixture: only the first contributing term is returned *)
Theorem C30_mixture_refuted : forall d E i x0 x1 x2 x3 v0 v1 v2 v3 mu E', get_lower_index (x_grid (fr_xs (sf0 d))) E = Ok i -> contributes (sf0 d) E i x0 -> contributes (sf1 d) E i x1 -> contributes (sf2 d) E i x2 -> contributes (sf3 d) E i x3 ->
  0 < x0 -> 0 < x1 -> 0 <= x2 -> 0 <= x3 -> 0 < v1 -> 0 <= v2 -> 0 <= v3 ->
  ae_pdf (fr_dist (sf0 d)) E mu E' = Ok (Some v0) -> ae_pdf (fr_dist (sf1 d)) E mu E' = Ok (Some v1) -> ae_pdf (fr_dist (sf2 d)) E mu E' = Ok (Some v2) -> ae_pdf (fr_dist (sf3 d)) E mu E' = Ok (Some v3) ->
  let t := x0 + x1 + x2 + x3 in exists p, sf_pdf d E mu E' = Ok (Some p) /\ p = x0 / t * v0 /\ p < x0 / t * v0 + x1 / t * v1 + x2 / t * v2 + x3 / t * v3.
Proof.
  intros d E i x0 x1 x2 x3 v0 v1 v2 v3 mu E' Hi H0 H1 H2 H3 P0 P1 N2 N3 V1 V2 V3 F0 F1 F2 F3 t. assert (Pt : 0 < t) by (unfold t; lra). exists (x0 / t * v0). unfold sf_pdf.
  rewrite (sf_chain_eq d E i x0 x1 x2 x3 Hi H0 H1 H2 H3 ltac:(lra) (fun l => ae_pdf l E mu E')). cbv zeta. fold t. destruct (Rlt_dec 0 x0); [|lra]. rewrite F0. cbn [bind]. split; [reflexivity|]. split; [reflexivity|].
  assert (0 < x1 / t * v1) by (apply Rmult_lt_0_compat; [apply Rdiv_lt_0_compat; lra|lra]). assert (Iv : 0 < / t) by (apply Rinv_0_lt_compat, Pt). assert (0 <= x2 / t * v2) by (apply Rmult_le_pos; [apply Rmult_le_pos; lra|lra]). assert (0 <= x3 / t * v3) by (apply Rmult_le_pos; [apply Rmult_le_pos; lra|lra]). lra.
Qed.
Print Assumptions C30_mixture_refuted.
Theorem C30_constructor_checks : forall a b c d : option (freact R), (a = None \/ b = None \/ c = None \/ d = None) -> make_sumfis a b c d = Throw.
Proof. intros a b c d H. destruct a, b, c, d; try reflexivity. destruct H as [H|[H|[H|H]]]; discriminate. Qed.
Print Assumptions C30_constructor_checks.
(** a grid [1,2], cross sections ending at 3 and 1, energy 2 *)
Definition g12 : egrid R := mkGrid [1; 2] [0%Z] 0 1.
Definition fr_ex (v p : R) : freact R := mkFR 0 (mkXs g12 [v; v] 0 false) (law_const p).
Example C30_nonvacuous : exists d i, make_sumfis (Some (fr_ex 3 5)) (Some (fr_ex 1 7)) (Some (fr_ex 0 0)) (Some (fr_ex 0 0)) = Ok d /\ get_lower_index (x_grid (fr_xs (sf0 d))) 2 = Ok i /\
  contributes (sf0 d) 2 i 3 /\ contributes (sf1 d) 2 i 1 /\ contributes (sf2 d) 2 i 0 /\ contributes (sf3 d) 2 i 0 /\ sf_pdf d 2 0 1 = Ok (Some (3 / (3 + 1 + 0 + 0) * 5)).
Proof.
  exists (mkSF (fr_ex 3 5) (fr_ex 1 7) (fr_ex 0 0) (fr_ex 0 0)), 1%Z. split; [reflexivity|].
  assert (G : get_lower_index g12 2 = Ok 1%Z). { unfold get_lower_index. cbn [g12 g_vals]. change (frontR [1; 2]) with (Ok 1). change (backR [1; 2]) with (Ok 2). cbn [bind]. change (@nleb R NumR) with Rleb. rdec. reflexivity. }
  split; [exact G|]. assert (C : forall v p, contributes (fr_ex v p) 2 1 v). { intros v p. left. cbn [fr_ex fr_threshold fr_xs]. split; [lra|reflexivity]. }
  split; [apply C|]. split; [apply C|]. split; [apply C|]. split; [apply C|]. unfold sf_pdf.
  rewrite (sf_chain_eq (mkSF (fr_ex 3 5) (fr_ex 1 7) (fr_ex 0 0) (fr_ex 0 0)) 2 1 3 1 0 0 G (C _ _) (C _ _) (C _ _) (C _ _) ltac:(lra)). cbv zeta. destruct (Rlt_dec 0 3); [reflexivity|lra].
Qed.

(** ** C31: uncorrelated laws *)
Theorem C31_pdf_product : forall T (N : Num T) (d : uncor T) E mu E' pa, adist_pdf (uc_angle d) E mu = Ok pa ->
  (forall pe, el_pdf (uc_energy d) E E' = Ok (Some pe) -> uc_pdf d E mu E' = Ok (Some (nmul pe pa))) /\ (el_pdf (uc_energy d) E E' = Ok None -> uc_pdf d E mu E' = Ok None) /\ uc_angle_pdf d E mu = Ok (Some pa).
Proof.
  intros T N d E mu E' pa Ha. unfold uc_pdf, uc_angle_pdf. split; [intros pe He; rewrite He; cbn [bind]; rewrite Ha; reflexivity|]. split; [intros He; rewrite He; reflexivity|rewrite Ha; reflexivity].
Qed.
Print Assumptions C31_pdf_product.
Theorem C31_absent_iff : forall (d : uncor R) E mu E' pa o, adist_pdf (uc_angle d) E mu = Ok pa -> el_pdf (uc_energy d) E E' = Ok o -> (uc_pdf d E mu E' = Ok None <-> o = None).
Proof. intros d E mu E' pa o Ha He. unfold uc_pdf. rewrite He. cbn [bind]. destruct o as [p|]; [rewrite Ha; cbn [bind]; split; discriminate|split; reflexivity]. Qed.
Print Assumptions C31_absent_iff.
(** the angle is sampled first, the energy from the remaining draws *)
Theorem C31_sampling_order : forall T (N : Num T) (d : uncor T) E ds mu e ds', uc_sample d E ds = Ok ((mu, e), ds') <->
  exists ds1, adist_sample (uc_angle d) E ds = Ok (mu, ds1) /\ el_sample (uc_energy d) E ds1 = Ok (e, ds').
Proof.
  intros T N d E ds mu e ds'. unfold uc_sample. split.
  - intros H. apply rbind_ok in H as (m & ds1 & H1 & H). apply rbind_ok in H as (e' & ds2 & H2 & H). apply rret_ok in H as [H <-]. injection H as <- <-. eauto.
  - intros (ds1 & H1 & H2). unfold rbind. rewrite H1, H2. reflexivity.
Qed.
Print Assumptions C31_sampling_order.
Theorem C31_null_energy_law_throws : forall (a : adist R), make_uncor a None = Throw /\ forall e, exists d, make_uncor a (Some e) = Ok d /\ uc_angle d = a /\ uc_energy d = e.
Proof. intros a. split; [reflexivity|]. intros e. eexists. repeat split. Qed.
Print Assumptions C31_null_energy_law_throws.
(** product of normalised marginals: a mu-normalised angle density and an energy density of mass one give a joint density of mass one *)
Theorem C31_joint_normalised : forall (d : uncor R) E (pa pe : R -> R) lo hi, computes (adist_pdf (uc_angle d) E) pa -> (forall x, el_pdf (uc_energy d) E x = Ok (Some (pe x))) ->
  is_RInt pa (-1) 1 1 -> is_RInt pe lo hi 1 -> exists joint : R -> R -> R, (forall mu x, uc_pdf d E mu x = Ok (Some (joint mu x))) /\
    (forall mu, is_RInt (joint mu) lo hi (pa mu)) /\ is_RInt (fun mu => RInt (joint mu) lo hi) (-1) 1 1.
Proof.
  intros d E pa pe lo hi Fa Fe Ia Ie. exists (fun mu x => pa mu * pe x). split.
  - intros mu x. unfold uc_pdf. rewrite Fe. cbn [bind]. rewrite Fa. cbn [bind]. do 2 f_equal. change (@nmul R NumR) with Rmult. ring.
  - assert (J : forall mu, is_RInt (fun x => pa mu * pe x) lo hi (pa mu)) by (intros mu; eapply iR_val; [|apply iR_scal, Ie]; ring).
    split; [exact J|]. apply is_RInt_ext with pa; [|exact Ia]. intros x _. symmetry. apply (is_RInt_unique (V := R_CompleteNormedModule)), J.
Qed.
Print Assumptions C31_joint_normalised.
Example C31_nonvacuous : exists d a, make_adist [1] [isotropic] = Ok a /\ make_uncor a (Some (mkEL (fun _ => rret 3) (fun _ _ => Ok None))) = Ok d /\ uc_sample d 1 [1 / 4] = Ok ((- 1 / 2, 3), []).
Proof.
  eexists _, (mkADist [1] [isotropic]). split; [reflexivity|]. split; [reflexivity|]. apply C31_sampling_order. exists []. split; [|reflexivity]. cbn [uc_angle].
  unfold adist_sample. cbn [ad_energy ad_laws]. assert (I : L_SearchR.increasing [1]) by (apply is_sorted_increasing; reval; reflexivity).
  unfold rbind at 1, rlift at 1. rewrite (lower_boundR_eq [1] 1 0 I). 2: { repeat split; try (cbn; lia); intros i Hi; try lia. change (sizeZ [1]) with 1%Z in Hi. assert (i = 0)%Z as -> by lia. getz; lra. }
  cbn [bind]. change (0 =? 0)%Z with true. cbv iota. change (frontR [@isotropic R NumR]) with (Ok (@isotropic R NumR)). unfold rbind, rlift. cbn [bind]. rewrite isotropic_value by lra. do 2 f_equal. lra.
Qed.
