(** * N-body phase space: sampling range and density *)
From Coquelicot Require Import Coquelicot.
From Verif Require Import Base NumR L_Search L_SearchR M_Interp M_PC M_Spectra L_Interp2 L_PCR L_Legendre L_Angle L_Spectra L_Spectra2.
From Coq Require Import ZifyBool ZifyNat.
Local Open Scope R_scope.

Definition draws_open (ds : list R) : Prop := forall x, In x ds -> 0 < x < 1.
Lemma open_tl x ds : draws_open (x :: ds) -> draws_open ds.
Proof. intros H y Hy. apply H. right; exact Hy. Qed.
Lemma ln_neg x : 0 < x < 1 -> ln x < 0.
Proof. intros H. rewrite <- ln_1. apply ln_increasing; lra. Qed.

Lemma mul01 a b : 0 < a < 1 -> 0 < b < 1 -> 0 < a * b < 1.
Proof. intros A B. split; nra. Qed.

Lemma nb_maxwell_pos ds x ds' : draws_open ds -> @nb_maxwell R NumR ds = Ok (x, ds') -> 0 < x /\ draws_open ds'.
Proof.
  intros D H. unfold nb_maxwell in H. apply rbind_ok in H as (u & d1 & H1 & H). apply rbind_ok in H as (a & d2 & H2 & H). apply rbind_ok in H as (b & d3 & H3 & H).
  apply rret_ok in H as [<- <-]. apply draw_ok in H1, H2, H3. subst ds d1 d2. split.
  - assert (A : ln a < 0) by (apply ln_neg, D; right; left; reflexivity). assert (B : ln b < 0) by (apply ln_neg, D; right; right; left; reflexivity).
    rnum. set (c := cos (PI * u / 2)). assert (0 <= c * c) by nra. assert (0 <= - ln b * (c * c)) by (apply Rmult_le_pos; lra). replace (ln b * c * c) with (- (- ln b * (c * c))) by ring. lra.
  - do 3 apply open_tl in D. exact D.
Qed.
Lemma nb_y_nonneg n ds y ds' : draws_open ds -> @nb_y R NumR n ds = Ok (y, ds') -> 0 <= y /\ draws_open ds'.
Proof.
  intros D H. unfold nb_y in H. destruct (n =? 3)%Z; [apply nb_maxwell_pos in H; [destruct H; split; [lra|assumption]|exact D]|]. destruct (n =? 4)%Z; [|destruct (n =? 5)%Z].
  - apply rbind_ok in H as (a & d1 & H1 & H). apply rbind_ok in H as (b & d2 & H2 & H). apply rbind_ok in H as (c & d3 & H3 & H). apply rret_ok in H as [<- <-]. apply draw_ok in H1, H2, H3. subst ds d1 d2.
    assert (A : 0 < a < 1) by (apply D; left; reflexivity). assert (B : 0 < b < 1) by (apply D; do 1 right; left; reflexivity). assert (C : 0 < c < 1) by (apply D; do 2 right; left; reflexivity).
    split; [|do 3 apply open_tl in D; exact D]. change (0 <= - ln (a * b * c)).
    assert (0 < a * b < 1) by (apply mul01; assumption). assert (0 < a * b * c < 1) by (apply mul01; assumption). pose proof (ln_neg (a * b * c) ltac:(assumption)). lra.
  - apply rbind_ok in H as (a & d1 & H1 & H). apply rbind_ok in H as (b & d2 & H2 & H). apply rbind_ok in H as (c & d3 & H3 & H). apply rbind_ok in H as (e & d4 & H4 & H).
    apply rbind_ok in H as (f & d5 & H5 & H). apply rbind_ok in H as (g & d6 & H6 & H). apply rret_ok in H as [<- <-]. apply draw_ok in H1, H2, H3, H4, H5, H6. subst ds d1 d2 d3 d4 d5.
    assert (A : 0 < a < 1) by (apply D; left; reflexivity). assert (B : 0 < b < 1) by (apply D; do 1 right; left; reflexivity). assert (C : 0 < c < 1) by (apply D; do 2 right; left; reflexivity).
    assert (E : 0 < e < 1) by (apply D; do 3 right; left; reflexivity). assert (F : 0 < f < 1) by (apply D; do 4 right; left; reflexivity).
    split; [|do 6 apply open_tl in D; exact D]. change (0 <= - ln (a * b * c * e) - ln f * Rpow (cos (1 / 2 * PI * g)) 2).
    assert (0 < a * b < 1) by (apply mul01; assumption). assert (0 < a * b * c < 1) by (apply mul01; assumption). assert (0 < a * b * c * e < 1) by (apply mul01; assumption). pose proof (ln_neg (a * b * c * e) ltac:(assumption)). pose proof (ln_neg f F).
    rewrite (Rpow_int _ 2). set (k := cos (1 / 2 * PI * g)). assert (0 <= powerRZ k 2) by (change (powerRZ k 2) with (k * (k * 1)); nra).
    assert (0 <= - ln f * powerRZ k 2) by (apply Rmult_le_pos; lra). lra.
  - apply rret_ok in H as [<- <-]. split; [change (0 <= 0); lra|exact D].
Qed.
Lemma nb_range d E ds mu e ds' : draws_open ds -> 0 <= nb_Emax d E -> nb_sample d E ds = Ok ((mu, e), ds') -> -1 <= mu < 1 /\ 0 <= e <= nb_Emax d E.
Proof.
  intros D M H. unfold nb_sample in H. apply rbind_ok in H as (x & d1 & H1 & H). apply rbind_ok in H as (y & d2 & H2 & H). apply rbind_ok in H as (u & d3 & H3 & H).
  apply rret_ok in H as [H <-]. injection H as <- <-. destruct (nb_maxwell_pos _ _ _ D H1) as [X D1]. destruct (nb_y_nonneg _ _ _ _ D1 H2) as [Y D2]. apply draw_ok in H3. subst d2.
  assert (U : 0 < u < 1) by (apply D2; left; reflexivity). split; [change (-1 <= 2 * u - 1 < 1); lra|].
  change (0 <= x / (x + y) * nb_Emax d E <= nb_Emax d E).
  assert (0 < x / (x + y)) by (apply Rdiv_lt_0_compat; lra). assert (x / (x + y) <= 1). { apply (Rmult_le_reg_r (x + y)); [lra|]. replace (x / (x + y) * (x + y)) with x by (field; lra). lra. } nra.
Qed.
Definition nb_draws (n : Z) : nat := if (n =? 3)%Z then 7 else if (n =? 4)%Z then 7 else if (n =? 5)%Z then 10 else 4.
Lemma nb_total d E ds : (nb_draws (nb_n d) <= length ds)%nat -> exists mu e ds', @nb_sample R NumR d E ds = Ok ((mu, e), ds') /\ length ds = (nb_draws (nb_n d) + length ds')%nat.
Proof.
  intros L. unfold nb_sample, nb_draws, nb_y, nb_maxwell, rbind, draw, rret in *.
  destruct (nb_n d =? 3)%Z; [|destruct (nb_n d =? 4)%Z; [|destruct (nb_n d =? 5)%Z]]; repeat (destruct ds as [|? ds]; [cbn in L; lia|]); do 3 eexists; split; reflexivity.
Qed.
Lemma make_nbody_spec n Ap A Q d : @make_nbody R NumR n Ap A Q = Ok d <-> (n = 3 \/ n = 4 \/ n = 5)%Z /\ 0 < Ap /\ 0 < A /\ d = mkNB n Ap A Q.
Proof.
  unfold make_nbody. change (@nleb R NumR) with Rleb. change (@nofZ R NumR 0) with 0.
  destruct ((n =? 3) || (n =? 4) || (n =? 5))%Z eqn:B; cbn [guard bind]; [|split; [discriminate|intros ([-> | [-> | ->]] & _); discriminate]].
  destruct (Rleb_spec Ap 0); [split; [discriminate|lra]|]. destruct (Rleb_spec A 0); [split; [discriminate|lra]|].
  split; [intros EE; apply Ok_eq in EE; subst d; split; [lia|split; [lra|split; [lra|reflexivity]]]|intros (_ & _ & _ & ->); reflexivity].
Qed.
Lemma make_nbody_throw n Ap A Q : ~ ((n = 3 \/ n = 4 \/ n = 5)%Z /\ 0 < Ap /\ 0 < A) -> @make_nbody R NumR n Ap A Q = Throw.
Proof.
  intros H. unfold make_nbody. change (@nleb R NumR) with Rleb. change (@nofZ R NumR 0) with 0.
  destruct ((n =? 3) || (n =? 4) || (n =? 5))%Z eqn:B; cbn [guard bind]; [|reflexivity].
  destruct (Rleb_spec Ap 0); [reflexivity|]. destruct (Rleb_spec A 0); [reflexivity|]. exfalso. apply H. split; [lia|split; lra].
Qed.

(** ** densities *)
Lemma sub_int (f g dg G : R -> R) a b v : (forall x, continuous f x) -> (forall x, is_derive g x (dg x)) -> (forall x, continuous dg x) -> a <= b ->
  (forall x, a <= x <= b -> is_derive G x (dg x * f (g x))) -> (forall x, continuous (fun x => dg x * f (g x)) x) -> G b - G a = v -> is_RInt f (g a) (g b) v.
Proof.
  intros Cf Dg Cg Hab DG CG <-.
  assert (H : is_RInt (fun y => dg y * f (g y)) a b (RInt f (g a) (g b))).
  { apply (is_RInt_comp f g dg a b); [intros; apply Cf|intros x _; split; [apply Dg|apply Cg]]. }
  assert (H' : is_RInt (fun y => dg y * f (g y)) a b (G b - G a)).
  { apply (is_RInt_derive G (fun y => dg y * f (g y)) a b); [|intros; apply CG]. intros x Hx. rewrite Rmin_left, Rmax_right in Hx by lra. apply DG, Hx. }
  apply (is_RInt_unique (V := R_CompleteNormedModule)) in H. apply (is_RInt_unique (V := R_CompleteNormedModule)) in H'.
  assert (Q : RInt f (g a) (g b) = G b - G a) by congruence. rewrite <- Q. apply (RInt_correct (V := R_CompleteNormedModule)), (ex_RInt_continuous (V := R_CompleteNormedModule)). intros; apply Cf.
Qed.
Lemma c_sin (f : R -> R) x : continuous f x -> continuous (fun y => sin (f y)) x. Proof. apply continuous_sin_comp. Qed.
Lemma c_cos (f : R -> R) x : continuous f x -> continuous (fun y => cos (f y)) x. Proof. apply continuous_cos_comp. Qed.
Lemma sin2cos2 x : sin x * sin x = 1 - cos x * cos x.
Proof. pose proof (sin2_cos2 x) as H. unfold Rsqr in H. lra. Qed.
Lemma quarter x : 0 <= x <= PI / 2 -> 0 <= sin x /\ 0 <= cos x.
Proof. intros H. pose proof PI_RGT_0. split; [apply sin_ge_0|apply cos_ge_0]; lra. Qed.

Lemma nb3_int M : 0 < M -> is_RInt (fun x => sqrt x * sqrt (M - x)) 0 M (PI * M * M / 8).
Proof.
  intros HM. pose proof PI_RGT_0 as HP.
  pose (g := fun x => M * (sin x * sin x)). assert (G0 : g 0 = 0) by (unfold g; rewrite sin_0; ring). assert (G1 : g (PI / 2) = M) by (unfold g; rewrite sin_PI2; ring).
  assert (K : is_RInt (fun x => sqrt x * sqrt (M - x)) (g 0) (g (PI / 2)) (PI * M * M / 8)); [|rewrite G0, G1 in K; exact K].
  apply (sub_int _ g (fun x => 2 * M * (sin x * cos x)) (fun x => 2 * M * M * ((x + sin x * cos x - 2 * (sin x * cos x ^ 3)) / 8))).
  - intros x. cont.
  - intros x. unfold g. auto_derive; [exact I|]. ring.
  - intros x. apply c_mult; [apply c_const|]. apply c_mult; [apply c_sin|apply c_cos]; cont.
  - lra.
  - intros x Hx. destruct (quarter x Hx) as [S C]. auto_derive; [exact I|]. unfold g.
    assert (E1 : sqrt (M * (sin x * sin x)) = sqrt M * sin x). { rewrite sqrt_mult by (try lra; nra). rewrite sqrt_square by exact S. reflexivity. }
    assert (E2 : sqrt (M - M * (sin x * sin x)) = sqrt M * cos x). { replace (M - M * (sin x * sin x)) with (M * (cos x * cos x)) by (rewrite sin2cos2; ring). rewrite sqrt_mult by (try lra; nra). rewrite sqrt_square by exact C. reflexivity. }
    rewrite E1, E2. replace (2 * M * (sin x * cos x) * (sqrt M * sin x * (sqrt M * cos x))) with (2 * M * (sqrt M * sqrt M) * (sin x * sin x) * (cos x * cos x)) by ring. rewrite sqrt_sqrt by lra.
    change (pred 3) with 2%nat. replace (INR 3) with 3 by (cbn; lra). cbn [pow]. 
    set (c := cos x). set (s := sin x). pose proof (sin2cos2 x) as Q. fold c s in Q.
    transitivity (2 * M * M * ((1 + c * c - s * s - 2 * (c * c * (c * c) - 3 * (s * s) * (c * c))) / 8)); [field|]. rewrite Q. field.
  - intros x. unfold g. apply c_mult; [apply c_mult; [apply c_const|]; apply c_mult; [apply c_sin|apply c_cos]; cont|].
    apply c_mult; apply c_sqrt; [|apply c_minus; [apply c_const|]]; apply c_mult; try apply c_const; apply c_mult; apply c_sin; cont.
  - rewrite sin_PI2, cos_PI2, sin_0, cos_0. field.
Qed.
Lemma nb5_int M : 0 < M -> is_RInt (fun x => sqrt x * (M - x) ^ 3 * sqrt (M - x)) 0 M (7 * PI * M ^ 5 / 256).
Proof.
  intros HM. pose proof PI_RGT_0 as HP.
  pose (g := fun x => M * (sin x * sin x)). assert (G0 : g 0 = 0) by (unfold g; rewrite sin_0; ring). assert (G1 : g (PI / 2) = M) by (unfold g; rewrite sin_PI2; ring).
  assert (K : is_RInt (fun x => sqrt x * (M - x) ^ 3 * sqrt (M - x)) (g 0) (g (PI / 2)) (7 * PI * M ^ 5 / 256)); [|rewrite G0, G1 in K; exact K].
  apply (sub_int _ g (fun x => 2 * M * (sin x * cos x)) (fun x => 2 * M ^ 5 * (7 / 256 * x + sin x * (7 / 256 * cos x + 7 / 384 * cos x ^ 3 + 7 / 480 * cos x ^ 5 + / 80 * cos x ^ 7 - / 10 * cos x ^ 9)))).
  - intros x. cont.
  - intros x. unfold g. auto_derive; [exact I|]. ring.
  - intros x. apply c_mult; [apply c_const|]. apply c_mult; [apply c_sin|apply c_cos]; cont.
  - lra.
  - intros x Hx. destruct (quarter x Hx) as [S C]. auto_derive; [exact I|]. unfold g.
    assert (E1 : sqrt (M * (sin x * sin x)) = sqrt M * sin x). { rewrite sqrt_mult by (try lra; nra). rewrite sqrt_square by exact S. reflexivity. }
    assert (E0 : M - M * (sin x * sin x) = M * (cos x * cos x)) by (rewrite sin2cos2; ring).
    assert (E2 : sqrt (M - M * (sin x * sin x)) = sqrt M * cos x). { rewrite E0. rewrite sqrt_mult by (try lra; nra). rewrite sqrt_square by exact C. reflexivity. }
    rewrite E2, E1, E0. replace (2 * M * (sin x * cos x) * (sqrt M * sin x * (M * (cos x * cos x)) ^ 3 * (sqrt M * cos x))) with (2 * M ^ 4 * (sqrt M * sqrt M) * (sin x * sin x) * (cos x) ^ 8) by ring. rewrite sqrt_sqrt by lra.
    cbn [pred]. replace (INR 3) with 3 by (cbn; lra). replace (INR 5) with 5 by (cbn; lra). replace (INR 7) with 7 by (cbn; lra). replace (INR 9) with 9 by (cbn; lra).
    set (c := cos x). set (s := sin x). pose proof (sin2cos2 x) as Q. fold c s in Q.
    transitivity (2 * M ^ 5 * (7 / 256 + c * (7 / 256 * c + 7 / 384 * c ^ 3 + 7 / 480 * c ^ 5 + / 80 * c ^ 7 - / 10 * c ^ 9) - (s * s) * (7 / 256 + 7 / 128 * c ^ 2 + 7 / 96 * c ^ 4 + 7 / 80 * c ^ 6 - 9 / 10 * c ^ 8))); [field|]. rewrite Q. field.
  - intros x. unfold g. apply c_mult; [apply c_mult; [apply c_const|]; apply c_mult; [apply c_sin|apply c_cos]; cont|].
    apply c_mult; [apply c_mult; [apply c_sqrt|apply c_pow, c_minus; [apply c_const|]]|apply c_sqrt, c_minus; [apply c_const|]]; apply c_mult; try apply c_const; apply c_mult; apply c_sin; cont.
  - rewrite sin_PI2, cos_PI2, sin_0, cos_0. field.
Qed.
Lemma nb4_int M : 0 < M -> is_RInt (fun x => sqrt x * (M - x) ^ 2) 0 M (16 / 105 * (M ^ 3 * sqrt M)).
Proof.
  intros HM. apply (iR_val _ _ _ ((fun x => sqrt x * (2 / 3 * M ^ 2 * x - 4 / 5 * M * x ^ 2 + 2 / 7 * x ^ 3)) M - (fun x => sqrt x * (2 / 3 * M ^ 2 * x - 4 / 5 * M * x ^ 2 + 2 / 7 * x ^ 3)) 0)).
  { rewrite sqrt_0. field. }
  apply (FTC_open (fun x => sqrt x * (2 / 3 * M ^ 2 * x - 4 / 5 * M * x ^ 2 + 2 / 7 * x ^ 3))); [exact HM| |intros x; cont|intros x; cont].
  intros x Hx. assert (Hs : 0 < sqrt x) by (apply sqrt_lt_R0; lra). assert (Q : sqrt x * sqrt x = x) by (apply sqrt_sqrt; lra).
  eapply dR_val; [|apply (dR_mult sqrt (fun x => 2 / 3 * M ^ 2 * x - 4 / 5 * M * x ^ 2 + 2 / 7 * x ^ 3)); [apply (dR_sqrt (fun y => y)); [apply (is_derive_id x)|lra]|auto_derive; [exact I|reflexivity]]].
  change (@one R_AbsRing) with 1. cbn [pred]. replace (INR 2) with 2 by (cbn; lra). replace (INR 3) with 3 by (cbn; lra).
  set (s := sqrt x) in *. rewrite <- Q. field. lra.
Qed.

(** the code's density on the open interval *)
Lemma half_pow y : 0 < y -> Rpower y (3 * 3 / 2 - 4) = sqrt y.
Proof. intros H. replace (3 * 3 / 2 - 4) with (/ 2) by lra. apply Rpower_sqrt, H. Qed.
Lemma seven_half y : 0 < y -> Rpower y (7 / 2) = y ^ 3 * sqrt y.
Proof. intros H. replace (7 / 2) with (INR 3 + / 2) by (cbn; lra). rewrite Rpower_plus, Rpower_pow, Rpower_sqrt by exact H. reflexivity. Qed.
Lemma nb_norm d E : (nb_n d = 3 \/ nb_n d = 4 \/ nb_n d = 5)%Z -> 0 < nb_Emax d E -> is_RInt (nb_pdf d E) 0 (nb_Emax d E) (1 / 2).
Proof.
  intros Hn HM. unfold nb_pdf. cbv zeta. set (M := nb_Emax d E) in *. pose proof PI_RGT_0 as HP. assert (Hs : 0 < sqrt M) by (apply sqrt_lt_R0; lra).
  destruct Hn as [-> | [-> | ->]]; cbn [Z.eqb Pos.eqb]; rnum.
  - apply is_RInt_ext with (fun x => 4 / (PI * M * M) * (sqrt x * sqrt (M - x))).
    + rewrite Rmin_left, Rmax_right by lra. intros x Hx. rewrite Rpow_pos, half_pow by lra. cbv beta. change (@eq R (4 / (PI * M * M) * (sqrt x * sqrt (M - x))) (4 / (PI * M * M) * sqrt x * sqrt (M - x))). ring.
    + eapply iR_val; [|apply iR_scal, nb3_int, HM]. field. lra.
  - apply is_RInt_ext with (fun x => 105 / (32 * (M ^ 3 * sqrt M)) * (sqrt x * (M - x) ^ 2)).
    + rewrite Rmin_left, Rmax_right by lra. intros x Hx. rewrite (Rpow_pos M), seven_half by lra. replace (3 * 4 / 2 - 4) with (IZR 2) by (cbn; lra). rewrite Rpow_int. cbn [powerRZ].
      change (Pos.to_nat 2) with 2%nat. match goal with |- ?a = ?b => change (@eq R a b) end. ring.
    + eapply iR_val; [|apply iR_scal, nb4_int, HM]. cbn [pow]. field. lra.
  - apply is_RInt_ext with (fun x => 256 / (14 * PI * M ^ 5) * (sqrt x * (M - x) ^ 3 * sqrt (M - x))).
    + rewrite Rmin_left, Rmax_right by lra. intros x Hx. rewrite (Rpow_pos (M - x)) by lra. replace (3 * 5 / 2 - 4) with (7 / 2) by lra. rewrite seven_half by lra.
      change 5 with (IZR 5). rewrite Rpow_int. cbn [powerRZ]. change (Pos.to_nat 5) with 5%nat. match goal with |- ?a = ?b => change (@eq R a b) end. ring.
    + eapply iR_val; [|apply iR_scal, nb5_int, HM]. cbn [pow]. field. lra.
Qed.
Lemma nb_pdf_nonneg d E x : (nb_n d = 3 \/ nb_n d = 4 \/ nb_n d = 5)%Z -> 0 < nb_Emax d E -> 0 <= x < nb_Emax d E -> 0 <= nb_pdf d E x.
Proof.
  intros Hn HM Hx. unfold nb_pdf. cbv zeta. set (M := nb_Emax d E) in *. pose proof PI_RGT_0 as HP. pose proof (sqrt_pos x).
  assert (P : forall y q, 0 < y -> 0 < Rpow y q) by (intros y q Hy; rewrite Rpow_pos by exact Hy; apply exp_pos).
  destruct Hn as [-> | [-> | ->]]; cbn [Z.eqb Pos.eqb]; rnum; (apply Rmult_le_pos; [apply Rmult_le_pos; [|assumption]|left; apply P; lra]); left; (apply Rdiv_lt_0_compat; [lra|]); repeat (first [lra | apply P; lra | apply Rmult_lt_0_compat]).
Qed.
(** n = 4: positive density beyond the largest possible energy *)
Lemma nb4_beyond d E x : nb_n d = 4%Z -> 0 < nb_Emax d E < x -> 0 < nb_pdf d E x.
Proof.
  intros Hn HM. unfold nb_pdf. cbv zeta. rewrite Hn. cbn [Z.eqb Pos.eqb]. set (M := nb_Emax d E) in *. rnum.
  apply Rmult_lt_0_compat; [apply Rmult_lt_0_compat; [|apply sqrt_lt_R0; lra]|].
  - apply Rdiv_lt_0_compat; [lra|]. apply Rmult_lt_0_compat; [lra|]. rewrite Rpow_pos by lra. apply exp_pos.
  - replace (3 * 4 / 2 - 4) with (IZR 2) by (cbn; lra). rewrite Rpow_int. cbn [powerRZ]. change (Pos.to_nat 2) with 2%nat. nra.
Qed.
