(** * Moments of Legendre and Kalbach cosines *)
From Coq Require Import Reals Lra Lia List Arith ZArith ZifyBool ZifyNat. From Coquelicot Require Import Coquelicot.
From Verif Require Import Base NumR M_Legendre M_OutE S_Legendre S_OutE S_Prob S_Mean L_Search L_Interp2 L_Legendre L_LegBound L_LegMoment L_OutE3 L_Prob L_ProbAngle L_ProbMean. Import ListNotations.
Local Open Scope R_scope.
Local Notation iR := (@is_RInt R_NormedModule).

(** any coefficient list is the series of its moments *)
Fixpoint unscale (l : nat) (c : list R) : list R := match c with [] => [] | x :: t => x * (2 / (2 * INR l + 1)) :: unscale (S l) t end.
Lemma unscale_nth c : forall l k, nth k (unscale l c) 0 = nth k c 0 * (2 / (2 * INR (l + k) + 1)).
Proof.
  induction c as [|x c IH]; intros l k; cbn [unscale]; [destruct k; cbn [nth]; ring|]. destruct k as [|k]; cbn [nth]; [rewrite Nat.add_0_r; reflexivity|]. rewrite IH. replace (l + S k)%nat with (S l + k)%nat by lia. reflexivity.
Qed.
Lemma unscale_length c : forall l, length (unscale l c) = length c. Proof. induction c; intros; cbn; auto. Qed.
Lemma pdf_unscale c mu : @leg_pdf R NumR c mu = series 0 (unscale 0 c) mu.
Proof.
  unfold leg_pdf. rewrite (leg_sum_series c 0 mu _ (unscale 0 c)); [rnum; ring| |rewrite unscale_length; reflexivity].
  intros k. rewrite unscale_nth. pose proof (pos_INR (0 + k)). field. lra.
Qed.
Lemma pdf_moment c k : iR (fun mu => @leg_pdf R NumR c mu * P k mu) (-1) 1 (nth k c 0 * (2 / (2 * INR k + 1))).
Proof.
  apply (@is_RInt_ext R_NormedModule (fun mu => series 0 (unscale 0 c) mu * P k mu)); [intros x _; req; rewrite pdf_unscale; reflexivity|].
  eapply iR_val; [|apply moment0]. rewrite unscale_nth. reflexivity.
Qed.
Lemma make_moment a d k : make_leg a = Ok d -> iR (fun mu => @leg_pdf R NumR (lg_a d) mu * P k mu) (-1) 1 (nth k (1 :: a) 0).
Proof.
  intros M. apply (@is_RInt_ext R_NormedModule (fun mu => series 0 (1 :: a) mu * P k mu)); [intros x _; req; rewrite (make_leg_pdf a d M); reflexivity|]. apply moment0.
Qed.
Lemma set_moment_moment (d : legd R) l v : l <> 0%nat -> let d' := fst (set_moment d l v) in
  iR (fun mu => @leg_pdf R NumR (lg_a d') mu * P l mu) (-1) 1 v /\
  forall k m, k <> l -> iR (fun mu => @leg_pdf R NumR (lg_a d) mu * P k mu) (-1) 1 m -> iR (fun mu => @leg_pdf R NumR (lg_a d') mu * P k mu) (-1) 1 m.
Proof.
  intros Hl d'. destruct (set_moment_effect d l v Hl) as [E1 E2']. fold d' in E1, E2'. split.
  - eapply iR_val; [|apply pdf_moment]. rewrite E1. pose proof (pos_INR l). field. lra.
  - intros k m Hk I. eapply iR_val; [|apply pdf_moment]. rewrite (E2' k Hk). pose proof (pdf_moment (lg_a d) k) as J.
    rewrite <- (is_RInt_unique (V := R_CompleteNormedModule) _ _ _ _ I). symmetry. exact (is_RInt_unique (V := R_CompleteNormedModule) _ _ _ _ J).
Qed.
Lemma P_lip n x y : -1 <= x <= 1 -> -1 <= y <= 1 -> Rabs (P n x - P n y) <= INR n * (INR n + 1) / 2 * Rabs (x - y).
Proof.
  intros Hx Hy. destruct (MVT_gen (P n) y x (D n)) as (c & Hc & E).
  - intros z _. apply D_ok.
  - intros z _. apply continuity_pt_filterlim. apply P_cont.
  - rewrite E, Rabs_mult. apply Rmult_le_compat_r; [apply Rabs_pos|]. apply D_abs. unfold Rmin, Rmax in Hc. destruct (Rle_dec y x); lra.
Qed.
Lemma units_01 ds : Forall (fun x => 0 < x < 1) ds -> forall x, In x ds -> 0 <= x < 1.
Proof. intros F x Hx. rewrite Forall_forall in F. specialize (F x Hx). lra. Qed.
Lemma leg_mean a d k : make_leg a = Ok d -> (forall mu, -1 <= mu <= 1 -> 0 <= series 0 (1 :: a) mu) ->
  has_density (leg_sample d) (-1) 1 (leg_pdf (lg_a d)) -> mean (leg_sample d) (P k) (nth k (1 :: a) 0).
Proof.
  intros M Pos H. apply (mean_density (leg_sample d) (-1) 1 (INR k * (INR k + 1) / 2) (leg_pdf (lg_a d)) (P k)); [lra| |exact H| | |].
  - intros ds v r U E. pose proof (leg_sample_range d ds v r (units_01 ds U) E). lra.
  - intros x Hx. rewrite (make_leg_pdf a d M). apply Pos. exact Hx.
  - intros x y Hx Hy. apply P_lip; assumption.
  - apply make_moment. exact M.
Qed.
(** Kalbach-Mann: mean cosine r (coth a - 1/a) *)
Lemma kalbach_mean_int a r : 0 < a -> iR (fun mu => kalbach_density a r mu * mu) (-1) 1 (r * (cosh a / sinh a - 1 / a)).
Proof.
  intros Ha. pose proof (sinh_pos a Ha) as Hs. set (K := a / (2 * sinh a)).
  pose (F := fun mu => K * ((mu * sinh (a * mu) / a - cosh (a * mu) / (a * a)) + r * (mu * cosh (a * mu) / a - sinh (a * mu) / (a * a)))).
  assert (DF : forall x, is_derive F x (kalbach_density a r x * x)).
  { intros x. unfold F, kalbach_density, K, sinh, cosh. auto_derive; [trivial|]. unfold sinh, cosh in Hs. field. lra. }
  assert (I : iR (fun mu => kalbach_density a r mu * mu) (-1) 1 (F 1 - F (-1))).
  { apply (@is_RInt_derive R_CompleteNormedModule F); [intros; apply DF|]. intros x _. apply (continuous_mult (K := R_AbsRing) (kalbach_density a r) (fun x => x)); [|apply continuous_id].
    apply (ex_derive_continuous (K := R_AbsRing) (V := R_NormedModule)). unfold kalbach_density, sinh, cosh. auto_derive. trivial. }
  eapply iR_val; [|exact I]. unfold F, K. rewrite !Rmult_1_r. replace (a * -1) with (- a) by ring. unfold sinh, cosh in *. rewrite Ropp_involutive. field. lra.
Qed.
Lemma kal_mean a r : 0 < a -> 0 <= r <= 1 -> mean (kal_mu r a) (fun mu => mu) (r * (cosh a / sinh a - 1 / a)).
Proof.
  intros Ha Hr. pose proof (sinh_pos a Ha) as Hs. apply (mean_density (kal_mu r a) (-1) 1 1 (kalbach_density a r) (fun mu => mu)); [lra| |apply kal_mu_density; assumption| | |apply kalbach_mean_int; exact Ha].
  - intros ds v q _ E. exact (kal_mu_cosine r a ds v q E).
  - intros x _. unfold kalbach_density. apply Rmult_le_pos; [left; apply Rdiv_lt_0_compat; lra|].
    pose proof (exp_pos (a * x)). pose proof (exp_pos (- (a * x))). unfold cosh, sinh. nra.
  - intros x y _ _. lra.
Qed.
