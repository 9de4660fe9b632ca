(** * Properties C18-C23, C61: tabulated outgoing energies and angles *)
From Coquelicot Require Import Coquelicot.
From Verif Require Import NumF Base NumR L_SearchR M_Interp M_PC S_PC L_PC L_PCR M_OutE S_OutE L_OutE L_OutE2 L_OutE3 L_OutE4.
From Coq Require Import Reals List Lia. Import ListNotations.
Local Open Scope R_scope.

(** ** C18 and C19: which table is used, and where the outgoing energy lies. [bracket] fixes the pair of tables and the factor f (it
    determines them: C18_bracket_unique); the table with the lower energy is used exactly when the first draw exceeds f, the other one
    otherwise, and the energy sampled from it is moved to the interpolated limits [lo,hi] keeping its relative position. *)
Theorem C18_bracket_unique : forall energy E l f l' f', L_SearchR.increasing energy -> bracket energy E l f -> bracket energy E l' f' -> l = l' /\ f = f'.
Proof. exact bracket_unique. Qed.
Print Assumptions C18_bracket_unique.
Theorem C19_tabular_energy : forall energy tables d E x1 x2 ds, make_tabe energy tables = Ok d -> (2 <= sizeZ energy)%Z -> (forall t, In t tables -> valid_pc t) ->
  0 <= x1 < 1 -> 0 <= x2 < 1 ->
  exists l f t1 t2 h e, bracket energy E l f /\ atZ tables l = Ok t1 /\ atZ tables (l + 1) = Ok t2 /\
    let t := if Rlt_dec f x1 then t1 else t2 in
    let lo := mix f (first_of (pc_values t1)) (first_of (pc_values t2)) in let hi := mix f (last_of (pc_values t1)) (last_of (pc_values t2)) in
    pc_sample t x2 = Ok h /\ te_sample d E (x1 :: x2 :: ds) = Ok (e, ds) /\ lo <= e <= hi /\
    same_fraction e lo hi h (first_of (pc_values t)) (last_of (pc_values t)).
Proof. exact te_sample_spec. Qed.
Print Assumptions C19_tabular_energy.
Theorem C19_tabular_energy_angle_partial : forall energy tables d E x1 xi x2 ds, make_tea energy tables = Ok d -> (2 <= sizeZ energy)%Z -> (forall t, In t tables -> valid_eat t) ->
  0 <= x1 < 1 -> 0 < xi < 1 -> 0 <= x2 < 1 ->
  exists l f t1 t2 h mu e, bracket energy E l f /\ atZ tables l = Ok t1 /\ atZ tables (l + 1) = Ok t2 /\
    let t := if Rlt_dec f x1 then t1 else t2 in
    let lo := mix f (first_of (ea_energy t1)) (first_of (ea_energy t2)) in let hi := mix f (last_of (ea_energy t1)) (last_of (ea_energy t2)) in
    ea_sample t (xi :: x2 :: ds) = Ok ((mu, h), ds) /\ tea_sample d E (x1 :: xi :: x2 :: ds) = Ok ((mu, e), ds) /\ -1 <= mu <= 1 /\ lo <= e <= hi /\
    same_fraction e lo hi h (first_of (ea_energy t)) (last_of (ea_energy t)).
Proof. exact tea_sample_spec. Qed.
Print Assumptions C19_tabular_energy_angle_partial.
(** the draw 0, which the generator may return, makes TabularEnergyAngle read out of range, whatever the tables *)
Theorem C19_zero_draw_refuted : forall energy tables d E x1 ds, make_tea energy tables = Ok d -> (2 <= sizeZ energy)%Z -> (forall t, In t tables -> valid_eat t) ->
  tea_sample d E (x1 :: 0 :: ds) = UB.
Proof. exact tea_sample_zero. Qed.
Print Assumptions C19_zero_draw_refuted.
Theorem C19_kalbach : forall energy tables d E x1 x2 x3 x4 ds, make_kal energy tables = Ok d -> (2 <= sizeZ energy)%Z -> (forall t, In t tables -> valid_kt t) ->
  0 <= x1 < 1 -> 0 <= x2 < 1 ->
  exists l f t1 t2 h r a mu e, bracket energy E l f /\ atZ tables l = Ok t1 /\ atZ tables (l + 1) = Ok t2 /\
    let t := if Rlt_dec f x1 then t1 else t2 in
    let lo := mix f (first_of (k_energy t1)) (first_of (k_energy t2)) in let hi := mix f (last_of (k_energy t1)) (last_of (k_energy t2)) in
    k_sample t x2 = Ok h /\ k_Rof t h = Ok r /\ k_Aof t h = Ok a /\ kal_mu r a (x3 :: x4 :: ds) = Ok (mu, ds) /\
    kal_sample d E (x1 :: x2 :: x3 :: x4 :: ds) = Ok ((mu, e), ds) /\ -1 <= mu <= 1 /\ lo <= e <= hi /\
    same_fraction e lo hi h (first_of (k_energy t)) (last_of (k_energy t)).
Proof. exact kal_sample_spec. Qed.
Print Assumptions C19_kalbach.
(** grid energies (and energies outside the grid) reproduce their own table *)
Theorem C19_tabular_energy_grid : forall energy tables d E x1 x2 ds k t, make_tabe energy tables = Ok d -> (2 <= sizeZ energy)%Z -> strictly_increasing energy ->
  (forall t, In t tables -> valid_pc t) -> 0 <= x1 < 1 -> 0 <= x2 < 1 -> own_table energy E x1 k -> atZ tables k = Ok t ->
  exists h, pc_sample t x2 = Ok h /\ te_sample d E (x1 :: x2 :: ds) = Ok (h, ds).
Proof. exact te_own. Qed.
Print Assumptions C19_tabular_energy_grid.
Theorem C19_tabular_energy_angle_grid : forall energy tables d E x1 xi x2 ds k t, make_tea energy tables = Ok d -> (2 <= sizeZ energy)%Z -> strictly_increasing energy ->
  (forall t, In t tables -> valid_eat t) -> 0 <= x1 < 1 -> 0 < xi < 1 -> 0 <= x2 < 1 -> own_table energy E x1 k -> atZ tables k = Ok t ->
  exists mu h, ea_sample t (xi :: x2 :: ds) = Ok ((mu, h), ds) /\ tea_sample d E (x1 :: xi :: x2 :: ds) = Ok ((mu, h), ds).
Proof. exact tea_own. Qed.
Print Assumptions C19_tabular_energy_angle_grid.
Theorem C19_kalbach_grid : forall energy tables d E x1 x2 x3 x4 ds k t, make_kal energy tables = Ok d -> (2 <= sizeZ energy)%Z -> strictly_increasing energy ->
  (forall t, In t tables -> valid_kt t) -> 0 <= x1 < 1 -> 0 <= x2 < 1 -> own_table energy E x1 k -> atZ tables k = Ok t ->
  exists mu h r a, k_sample t x2 = Ok h /\ k_Rof t h = Ok r /\ k_Aof t h = Ok a /\ kal_mu r a (x3 :: x4 :: ds) = Ok (mu, ds) /\
    kal_sample d E (x1 :: x2 :: x3 :: x4 :: ds) = Ok ((mu, h), ds).
Proof. exact kal_own. Qed.
Print Assumptions C19_kalbach_grid.
(** at or below the first grid energy a first draw of exactly 0 uses the second table instead of the first *)
Theorem C18_zero_draw_refuted : exists d, make_tabe [1; 2] [uni 1; step2] = Ok d /\ (forall t, In t [uni 1; step2] -> valid_pc t) /\
  te_sample d 1 [0; 1/4] = Ok (1/2, []) /\ pc_sample (uni 1) (1/4) = Ok (1/4).
Proof. exact te_zero_draw_instance. Qed.
Print Assumptions C18_zero_draw_refuted.
Theorem C18_zero_draw_general : forall energy tables d E x2 ds t1 t2, make_tabe energy tables = Ok d -> (2 <= sizeZ energy)%Z -> (forall t, In t tables -> valid_pc t) ->
  0 <= x2 < 1 -> E <= getR energy 0 -> atZ tables 0 = Ok t1 -> atZ tables 1 = Ok t2 ->
  exists h e, pc_sample t2 x2 = Ok h /\ te_sample d E (0 :: x2 :: ds) = Ok (e, ds) /\
    same_fraction e (first_of (pc_values t1)) (last_of (pc_values t1)) h (first_of (pc_values t2)) (last_of (pc_values t2)).
Proof. exact te_zero_draw. Qed.
Print Assumptions C18_zero_draw_general.
Example C19_nonvacuous : (exists d, make_tabe [1; 2] [uni 1; step2] = Ok d) /\ valid_pc (uni 1) /\ valid_pc step2 /\ own_table [1; 2] 2 0 1 /\ bracket [1; 2] (3/2) 0 (1/2).
Proof.
  split; [eexists; apply make_tabe_ok; [apply inc12|reflexivity]|]. split; [apply (uni_valid 1); lra|]. split; [apply step2_valid|]. split.
  - right. split; [cbn; lia|]. left. getz. reflexivity.
  - split; [lia|]. split; [cbn; lia|]. right; right. getz. split; lra.
Qed.
Definition eat1 : eat R := mkEAT [0; 1/2; 1] [1/2; 3/2; 0] [0; 1/4; 1] [uni 1; uni 1; uni 1] Histogram.
Lemma eat1_valid : valid_eat eat1.
Proof. split; [exact step2_valid|reflexivity|]. intros a [<-|[<-|[<-|[]]]]; apply (uni_valid 1); lra. Qed.
Definition kt1 : kt R := mkKT [0; 1/2; 1] [1/2; 3/2; 0] [0; 1/4; 1] [0; 1/2; 1] [1; 1; 2] Histogram.
Lemma kt1_valid : valid_kt kt1.
Proof. split; [exact step2_valid|reflexivity|reflexivity]. Qed.
Example C19_nonvacuous_angle : (exists d, make_tea [1; 2] [eat1; eat1] = Ok d) /\ valid_eat eat1 /\ (exists d, make_kal [1; 2] [kt1; kt1] = Ok d) /\ valid_kt kt1.
Proof.
  split; [eexists; unfold make_tea; rewrite (proj2 (is_sorted_increasing [1; 2]) inc12); reflexivity|]. split; [exact eat1_valid|].
  split; [eexists; unfold make_kal; rewrite (proj2 (is_sorted_increasing [1; 2]) inc12); reflexivity|]. exact kt1_valid.
Qed.

(** ** C20: with one incident energy, sampling and pdf read out of range for every incident energy (in every arithmetic) *)
Theorem C20_single_energy_refuted : forall (T : Type) (N : Num T) (e E E_out mu : T) ds,
  (forall t d, make_tabe [e] [t] = Ok d -> te_sample d E ds = UB /\ te_pdf d E E_out = UB) /\
  (forall t d, make_tea [e] [t] = Ok d -> tea_sample d E ds = UB /\ tea_pdf d E mu E_out = UB) /\
  (forall t d, make_kal [e] [t] = Ok d -> kal_sample d E ds = UB /\ kal_pdf d E mu E_out = UB).
Proof.
  intros T N e E E_out mu ds. split; [|split]; intros t d M; [exact (te_single e t d E E_out ds M)|exact (tea_single e t d E mu E_out ds M)|exact (kal_single e t d E mu E_out ds M)].
Qed.
Print Assumptions C20_single_energy_refuted.
Example C20_single_accepted : (exists d, make_tabe [1] [uni 1] = Ok d) /\ (exists d, make_tea [1] [eat1] = Ok d) /\ (exists d, make_kal [1] [kt1] = Ok d).
Proof.
  assert (I : is_sorted [1] = true) by reflexivity. unfold make_tabe, make_tea, make_kal. rewrite I. split; [|split]; eexists; reflexivity.
Qed.
(** with two or more it is safe *)
Theorem C20_two_energies_partial : forall energy tables d E x1 x2 ds, make_tabe energy tables = Ok d -> (2 <= sizeZ energy)%Z -> (forall t, In t tables -> valid_pc t) ->
  0 <= x1 < 1 -> 0 <= x2 < 1 -> exists e, te_sample d E (x1 :: x2 :: ds) = Ok (e, ds) /\ forall E_out, exists p, te_pdf d E E_out = Ok p.
Proof.
  intros energy tables d E x1 x2 ds M Hn V X1 X2. destruct (te_sample_spec _ _ _ E x1 x2 ds M Hn V X1 X2) as (l & f & t1 & t2 & h & e & _ & _ & _ & P). cbv zeta in P.
  exists e. split; [apply P|]. intros E_out. destruct (te_pdf_spec _ _ _ E M Hn V) as (_ & _ & _ & _ & g & _ & _ & _ & P1 & _). eexists. apply P1.
Qed.
Print Assumptions C20_two_energies_partial.

(** ** C21: EnergyAngleTable *)
Theorem C21_sample_partial : forall t xi x2 ds, valid_eat t -> 0 < xi < 1 -> 0 <= x2 < 1 ->
  exists a k m e (g : R -> R), (0 <= k < sizeZ (ea_energy t))%Z /\ atZ (ea_angles t) k = Ok a /\ pc_sample a x2 = Ok m /\
    ea_sample t (xi :: x2 :: ds) = Ok ((@clamp_mu R NumR m, e), ds) /\ first_of (ea_energy t) <= e <= last_of (ea_energy t) /\
    (forall y, pc_pdf (mkPC (ea_energy t) (ea_pdf t) (ea_cdf t) (ea_interp t)) y = Ok (g y)) /\ is_RInt g (first_of (ea_energy t)) e xi.
Proof.
  intros t xi x2 ds V X X2. destruct (ea_sample_spec t xi x2 ds V X X2) as (a & k & m & e & H1 & H2 & H3 & H4 & H5 & H6). exists a, k, m, e, (dens (ea_energy t) (ea_pdf t) (ea_cdf t) (ea_interp t)).
  repeat (split; [assumption|]). split; [exact (dens_ok _ _ _ _ (ve_table t V))|exact H6].
Qed.
Print Assumptions C21_sample_partial.
Theorem C21_pdf_partial : forall t mu E_out, valid_eat t -> (ea_interp t = Histogram \/ E_out <> last_of (ea_energy t) -> exists p, ea_pdf2 t mu E_out = Ok p) /\
  (E_out < first_of (ea_energy t) \/ last_of (ea_energy t) < E_out -> ea_pdf2 t mu E_out = Ok 0).
Proof. intros t mu E_out V. split; intros H; [exact (ea_pdf_safe t mu E_out V H)|exact (ea_pdf_outside t mu E_out V H)]. Qed.
Print Assumptions C21_pdf_partial.
(** a draw of exactly 0 reads out of range, for every valid table *)
Theorem C21_sample_zero_refuted : forall t ds, valid_eat t -> ea_sample t (0 :: ds) = UB.
Proof. exact ea_sample_zero. Qed.
Print Assumptions C21_sample_zero_refuted.
(** so does the pdf at the last tabulated energy *)
Theorem C21_pdf_last_refuted : forall t mu, valid_eat t -> strictly_increasing (ea_energy t) -> ea_interp t = LinLin -> ea_pdf2 t mu (last_of (ea_energy t)) = UB.
Proof. exact ea_pdf_last_ub. Qed.
Print Assumptions C21_pdf_last_refuted.
Theorem C21_mismatched_sizes_refuted : exists t : eat R, make_eat [0; 1] [1; 1] [0; 1] [] Histogram = Ok t /\ forall xi ds, 0 < xi < 1 -> ea_sample t (xi :: ds) = UB.
Proof. exact eat_mismatch. Qed.
Print Assumptions C21_mismatched_sizes_refuted.
Example C21_nonvacuous : valid_eat eat1. Proof. exact eat1_valid. Qed.

(** ** C22: KalbachTable *)
Theorem C22_inverse_cdf : forall t xi, valid_kt t -> 0 <= xi < 1 -> exists h (g : R -> R), k_sample t xi = Ok h /\ first_of (k_energy t) <= h <= last_of (k_energy t) /\
  (forall y, pc_pdf (mkPC (k_energy t) (k_pdf t) (k_cdf t) (k_interp t)) y = Ok (g y)) /\ is_RInt g (first_of (k_energy t)) h xi.
Proof.
  intros t xi V X. destruct (k_sample_valid t xi V X) as (h & H1 & H2 & H3). exists h, (dens (k_energy t) (k_pdf t) (k_cdf t) (k_interp t)).
  split; [exact H1|]. split; [exact H2|]. split; [exact (dens_ok _ _ _ _ (vk_table t V))|exact H3].
Qed.
Print Assumptions C22_inverse_cdf.
(** both parameters: between neighbouring tabulated values; end values outside; for linear tables the exact value at the points *)
Theorem C22_parameters : forall t v E, valid_kt t -> (v = k_R t \/ v = k_A t) ->
  (exists y k j, k_param t v E = Ok y /\ (0 <= k)%Z /\ (j = k \/ j = k + 1)%Z /\ (j < sizeZ (k_energy t))%Z /\ Rmin (getR v k) (getR v j) <= y <= Rmax (getR v k) (getR v j)) /\
  (E <= first_of (k_energy t) -> k_param t v E = Ok (first_of v)) /\
  (last_of (k_energy t) <= E -> k_param t v E = Ok (last_of v)) /\
  (forall k, (0 <= k)%Z -> (k + 1 < sizeZ (k_energy t))%Z -> getR (k_energy t) k < E <= getR (k_energy t) (k + 1) -> E < last_of (k_energy t) -> k_param t v E = Ok
     (match k_interp t with Histogram => getR v k | _ => mix ((E - getR (k_energy t) k) / (getR (k_energy t) (k + 1) - getR (k_energy t) k)) (getR v k) (getR v (k + 1)) end)) /\
  (k_interp t = LinLin -> strictly_increasing (k_energy t) -> forall k, (0 <= k < sizeZ (k_energy t))%Z -> k_param t v (getR (k_energy t) k) = Ok (getR v k)).
Proof.
  intros t v E V Hv. assert (Sv : sizeZ v = sizeZ (k_energy t)) by (destruct Hv as [-> | ->]; apply V). pose proof (vt_values _ _ _ _ (vk_table t V)) as I. pose proof (valid_kt_n t V) as Hn.
  split. { destruct (k_param_between t v I Hn Sv E) as (y & k & H1 & H2 & H3 & j & H4 & H5 & H6). exists y, k, j. auto 10. }
  split; [intros H; exact (k_param_below t v Hn Sv E H)|]. pose proof (valid_wide _ _ _ _ (vk_table t V)). split; [intros H'; apply (k_param_above t v Hn Sv E); lra|].
  split; [exact (k_param_inside t v I Hn Sv E)|]. intros H1 H2 k H3. exact (k_param_point t v I Hn Sv k H1 H2 H3).
Qed.
Print Assumptions C22_parameters.
Theorem C22_pdf_partial : forall t mu E_out, valid_kt t -> (k_interp t = Histogram \/ E_out <> last_of (k_energy t) -> exists p, k_pdf2 t mu E_out = Ok p) /\
  (E_out < first_of (k_energy t) \/ last_of (k_energy t) < E_out -> k_pdf2 t mu E_out = Ok 0).
Proof. intros t mu E_out V. split; intros H; [exact (k_pdf_safe t mu E_out V H)|exact (k_pdf_outside t mu E_out V H)]. Qed.
Print Assumptions C22_pdf_partial.
Theorem C22_pdf_last_refuted : forall t mu, valid_kt t -> strictly_increasing (k_energy t) -> k_interp t = LinLin -> k_pdf2 t mu (last_of (k_energy t)) = UB.
Proof. exact k_pdf_last_ub. Qed.
Print Assumptions C22_pdf_last_refuted.
(** histogram tables: at an interior grid energy the parameters of the previous point are returned *)
Theorem C22_histogram_point_refuted : forall t v k, valid_kt t -> (v = k_R t \/ v = k_A t) -> k_interp t = Histogram -> strictly_increasing (k_energy t) -> (0 < k)%Z -> (k + 1 < sizeZ (k_energy t))%Z ->
  k_param t v (getR (k_energy t) k) = Ok (getR v (k - 1)).
Proof.
  intros t v k V Hv Hi S H1 H2. assert (Sv : sizeZ v = sizeZ (k_energy t)) by (destruct Hv as [-> | ->]; apply V).
  exact (k_param_histogram_point t v (vt_values _ _ _ _ (vk_table t V)) (valid_kt_n t V) Sv k Hi S H1 H2).
Qed.
Print Assumptions C22_histogram_point_refuted.
Theorem C22_empty_refuted : forall i, table_interp i = true -> make_kt (T := R) [] [] [] [] [] i = UB.
Proof. exact make_kt_empty. Qed.
Print Assumptions C22_empty_refuted.
Example C22_nonvacuous : valid_kt kt1 /\ exists t, make_kt [0; 1/2; 1] [1/2; 3/2; 0] [0; 1/4; 1] [0; 1/2; 1] [1; 1; 2] Histogram = Ok t.
Proof. split; [exact kt1_valid|]. eexists. unfold make_kt. reval. reflexivity. Qed.

(** ** C23: the Kalbach-Mann density *)
Theorem C23_density : forall a r, 0 < a -> 0 <= r <= 1 -> is_RInt (fun mu => @mu_p R NumR mu a r) (-1) 1 1 /\
  (forall mu, 0 <= @mu_p R NumR mu a r) /\ (forall mu, @mu_p R NumR mu a r = a / (2 * sinh a) * (cosh (a * mu) + r * sinh (a * mu))).
Proof.
  intros a r Ha Hr. assert (E : forall mu, @mu_p R NumR mu a r = kalbach_density a r mu) by (intros mu; apply mu_p_density; lra).
  split; [|split]; [eapply is_RInt_ext; [intros x _; symmetry; apply E|apply kalbach_normalised; lra]|intros mu; rewrite E; apply kalbach_nonneg; lra|exact E].
Qed.
Print Assumptions C23_density.
(** the density is the mixture, with weights 1-r and r, of its r=0 and r=1 cases; the sampler takes the first exactly when the first
    draw exceeds R and returns, from the second draw y, the cosine at which that component's cumulative distribution equals y *)
Theorem C23_mixture : forall a r mu, kalbach_density a r mu = (1 - r) * kalbach_density a 0 mu + r * kalbach_density a 1 mu.
Proof. exact kalbach_mixture. Qed.
Print Assumptions C23_mixture.
Theorem C23_sampling : forall r a x y ds, 0 < a -> 0 <= y < 1 -> exists mu, kal_mu r a (x :: y :: ds) = Ok (mu, ds) /\ -1 <= mu <= 1 /\
  is_RInt (kalbach_density a (if Rlt_dec r x then 0 else 1)) (-1) mu y.
Proof.
  intros r a x y ds Ha Hy. destruct (Rlt_dec r x) as [H|H].
  - destruct (kal_mu_sym r a x y ds Ha H Hy) as (mu & E & B & C). exists mu. split; [exact E|]. split; [exact B|]. apply sym_cdf; assumption.
  - destruct (kal_mu_exp r a x y ds Ha ltac:(lra) Hy) as (mu & E & B & C). exists mu. split; [exact E|]. split; [exact B|]. apply exp_cdf; assumption.
Qed.
Print Assumptions C23_sampling.
(** whatever the parameters, a returned cosine is in [-1,1] *)
Theorem C23_cosine : forall r a ds mu ds', kal_mu r a ds = Ok (mu, ds') -> -1 <= mu <= 1.
Proof. exact kal_mu_cosine. Qed.
Print Assumptions C23_cosine.
(** the angular density of a whole table is normalised *)
Theorem C23_table_density : forall t, valid_kt t -> (forall a, In a (k_A t) -> a <> 0) -> exists g, (forall mu, k_angle_pdf t mu = Ok (g mu)) /\ is_RInt g (-1) 1 1.
Proof. exact k_angle_pdf_normalised. Qed.
Print Assumptions C23_table_density.
Example C23_nonvacuous : valid_kt kt1 /\ forall a, In a (k_A kt1) -> a <> 0.
Proof. split; [exact kt1_valid|]. cbn. intros a [<-|[<-|[<-|[]]]]; lra. Qed.

(** ** C61: the interpolated outgoing-energy density *)
(** full statement: the density at every incident energy integrates to one. Exact value of the integral: *)
Theorem C61_integral_partial : forall energy tables d E, make_tabe energy tables = Ok d -> (2 <= sizeZ energy)%Z -> (forall t, In t tables -> valid_pc t) ->
  exists l f t1 t2 (g : R -> R), bracket energy E l f /\ atZ tables l = Ok t1 /\ atZ tables (l + 1) = Ok t2 /\
    (forall x, te_pdf d E x = Ok (g x)) /\ (forall x, 0 <= g x) /\
    let lo := mix f (first_of (pc_values t1)) (first_of (pc_values t2)) in let hi := mix f (last_of (pc_values t1)) (last_of (pc_values t2)) in
    let w1 := last_of (pc_values t1) - first_of (pc_values t1) in let w2 := last_of (pc_values t2) - first_of (pc_values t2) in
    is_RInt g lo hi ((hi - lo) * mix f (/ w1) (/ w2)) /\ (forall x, x < lo \/ hi < x -> g x = 0).
Proof. exact te_pdf_spec. Qed.
Print Assumptions C61_integral_partial.
Theorem C61_same_width_partial : forall energy tables d E, make_tabe energy tables = Ok d -> (2 <= sizeZ energy)%Z -> (forall t, In t tables -> valid_pc t) ->
  (forall t t', In t tables -> In t' tables -> last_of (pc_values t) - first_of (pc_values t) = last_of (pc_values t') - first_of (pc_values t')) ->
  exists g lo hi, (forall x, te_pdf d E x = Ok (g x)) /\ (forall x, 0 <= g x) /\ (forall x, x < lo \/ hi < x -> g x = 0) /\ is_RInt g lo hi 1.
Proof. exact te_pdf_normalised. Qed.
Print Assumptions C61_same_width_partial.
Theorem C61_grid_energy_partial : forall energy tables d k, make_tabe energy tables = Ok d -> (2 <= sizeZ energy)%Z -> strictly_increasing energy -> (forall t, In t tables -> valid_pc t) -> (0 <= k < sizeZ energy)%Z ->
  exists g lo hi, (forall x, te_pdf d (getR energy k) x = Ok (g x)) /\ (forall x, 0 <= g x) /\ (forall x, x < lo \/ hi < x -> g x = 0) /\ is_RInt g lo hi 1.
Proof. exact te_pdf_grid. Qed.
Print Assumptions C61_grid_energy_partial.
Example C61_nonvacuous : exists d g lo hi, make_tabe [1; 2] [uni 1; uni 1] = Ok d /\ (forall x, te_pdf d (3/2) x = Ok (g x)) /\ is_RInt g lo hi 1.
Proof.
  pose proof (make_tabe_ok [1; 2] [uni 1; uni 1] inc12 eq_refl) as Mk. set (d := mkTabE [1; 2] [uni 1; uni 1]) in *.
  destruct (C61_same_width_partial [1; 2] [uni 1; uni 1] d (3/2) Mk) as (g & lo & hi & G & _ & _ & I); [cbn; lia| | |exists d, g, lo, hi; auto].
  - intros t [<-|[<-|[]]]; apply uni_valid; lra.
  - intros t t' [<-|[<-|[]]] [<-|[<-|[]]]; reflexivity.
Qed.
(** uniform tables on [0,1] and [0,3]: halfway between them the density integrates to 4/3 (the unit-base Jacobian is missing) *)
Theorem C61_refuted : exists d g v, make_tabe [1; 2] [uni 1; uni 3] = Ok d /\ (forall t, In t [uni 1; uni 3] -> valid_pc t) /\
  (forall x, te_pdf d (3/2) x = Ok (g x)) /\ is_RInt g 0 2 v /\ (forall x, x < 0 \/ 2 < x -> g x = 0) /\ v = 4/3.
Proof. exact te_pdf_bad. Qed.
Print Assumptions C61_refuted.
