(** * The law of Evaporation::sample_energy *)
From Coq Require Import Reals Lra Lia List Arith. From Coquelicot Require Import Coquelicot.
From Verif Require Import Base NumR M_Spectra L_Search L_Legendre L_Spectra S_Prob L_Prob. Import ListNotations.
Local Open Scope R_scope.
Local Notation iR := (@is_RInt R_NormedModule).

(** ** a step *)
Lemma iR_const_on (f : R -> R) a b u : a <= b -> (forall x, a < x < b -> f x = u) -> iR f a b ((b - a) * u).
Proof.
  intros L H. apply (@is_RInt_ext R_NormedModule (fun _ => u)); [|exact (@is_RInt_const R_NormedModule a b u)].
  rewrite Rmin_left, Rmax_right by lra. intros x Hx. symmetry. apply H. exact Hx.
Qed.
Lemma iR_chasles (f : R -> R) a b c u v : iR f a b u -> iR f b c v -> iR f a c (u + v).
Proof. intros A B. exact (@is_RInt_Chasles R_NormedModule f a b c u v A B). Qed.
Lemma iR_step (f : R -> R) c u v : 0 <= c <= 1 -> (forall x, 0 < x < c -> f x = u) -> (forall x, c < x < 1 -> f x = v) -> iR f 0 1 (c * u + (1 - c) * v).
Proof.
  intros C A B. eapply iR_chasles with (b := c).
  - eapply iR_eq; [|apply (iR_const_on f 0 c u); [lra|exact A]]. ring.
  - apply iR_const_on; [lra|exact B].
Qed.
Lemma iR_ext (f g : R -> R) a b v : a <= b -> (forall x, a < x < b -> f x = g x) -> iR f a b v -> iR g a b v.
Proof. intros L H. apply (@is_RInt_ext R_NormedModule). rewrite Rmin_left, Rmax_right by lra. exact H. Qed.

Lemma exp_le x y : x <= y -> exp x <= exp y.
Proof. intros [H| ->]; [left; apply exp_increasing; exact H|right; reflexivity]. Qed.
Section Ev.
  Variables (t w : R). Hypothesis (Pt : 0 < t) (Pw : 0 < w).
  Let g := 1 - exp (- w).
  Lemma ev_g : 0 < g < 1.
  Proof. unfold g. pose proof (exp_pos (- w)). assert (exp (- w) < exp 0) by (apply exp_increasing; lra). rewrite exp_0 in *. lra. Qed.
  Definition ev_phi (l : list R) : R := match l with [x1; x2] => - t * ln ((1 - g * x1) * (1 - g * x2)) | _ => 0 end.
  Lemma ev_le s x1 x2 : 0 < x1 < 1 -> 0 < x2 < 1 -> ev_phi [x1; x2] <= s <-> x2 <= (1 - exp (- (s / t)) / (1 - g * x1)) / g.
  Proof.
    intros H1 H2. pose proof ev_g as G. cbn. set (a := 1 - g * x1). assert (A : 0 < a) by (unfold a; nra). assert (B : 0 < 1 - g * x2) by nra.
    assert (AB : 0 < a * (1 - g * x2)) by nra. set (e := exp (- (s / t))). pose proof (exp_pos (- (s / t))) as Pe. fold e in Pe.
    transitivity (e <= a * (1 - g * x2)).
    - split; intros H.
      + rewrite <- (exp_ln (a * (1 - g * x2))) by exact AB. unfold e. apply Rnot_lt_le. intros X. apply exp_lt_inv in X. apply (Rmult_lt_compat_l t) in X; [|exact Pt]. replace (t * - (s / t)) with (- s) in X by (field; lra). lra.
      + assert (X : - (s / t) <= ln (a * (1 - g * x2))). { rewrite <- (ln_exp (- (s / t))). fold e. apply ln_le; assumption. } apply (Rmult_le_compat_l t) in X; [|lra]. replace (t * - (s / t)) with (- s) in X by (field; lra). lra.
    - split; intros H.
      + apply Rle_div_r; [lra|]. assert (e / a <= 1 - g * x2); [|lra]. apply Rle_div_l; [exact A|]. lra.
      + apply Rle_div_r in H; [|lra]. assert (X : e / a <= 1 - g * x2) by lra. apply Rle_div_l in X; [|exact A]. lra.
  Qed.
  Lemma ev_pos x1 x2 : 0 < x1 < 1 -> 0 < x2 < 1 -> 0 < ev_phi [x1; x2].
  Proof. intros H1 H2. pose proof ev_g as G. cbn. assert (A : 0 < 1 - g * x1 < 1) by nra. assert (B : 0 < 1 - g * x2 < 1) by nra. assert (ln ((1 - g * x1) * (1 - g * x2)) < ln 1) by (apply ln_increasing; [apply Rmult_lt_0_compat; lra|]; apply Rlt_trans with (1 * (1 - g * x2)); [apply Rmult_lt_compat_r|]; lra). rewrite ln_1 in *. nra. Qed.
  Definition ev_P (s : R) : R := (1 - exp (- (s / t)) - s / t * exp (- (s / t))) / (g * g).
  Lemma ev_prob s : 0 <= s <= t * w -> prob 2 (fun l => 0 <= ev_phi l <= s) (ev_P s).
  Proof.
    intros Hs. pose proof ev_g as G. set (e := exp (- (s / t))). set (q := s / t).
    assert (Q : 0 <= q <= w) by (unfold q; split; [apply Rle_div_r; lra|apply Rle_div_l; lra]).
    assert (Pe : 1 - g <= e <= 1). { unfold e, g. fold q. replace (1 - (1 - exp (- w))) with (exp (- w)) by ring. split; [apply exp_le; lra|]. rewrite <- exp_0. apply exp_le; lra. }
    set (x0 := (1 - e) / g). assert (X0 : 0 <= x0 <= 1) by (unfold x0; split; [apply Rle_div_r; lra|apply Rle_div_l; lra]).
    exists (fun l => if Rle_dec (ev_phi l) s then 1 else 0). split.
    { intros l [L F]. destruct l as [|x1 [|x2 [|]]]; try discriminate. inversion F as [|? ? H1 F']; subst. inversion F' as [|? ? H2 _]; subst. pose proof (ev_pos x1 x2 H1 H2). destruct (Rle_dec _ s); [left|right]; split; try reflexivity; lra. }
    cbn [expect]. exists (fun x1 => if Rle_dec x1 x0 then (1 - e / (1 - g * x1)) / g else 0). split.
    - intros x1 H1. exists (fun x2 => if Rle_dec (ev_phi [x1; x2]) s then 1 else 0). split; [intros; reflexivity|].
      assert (A : 1 - g < 1 - g * x1 < 1) by nra. set (c := (1 - e / (1 - g * x1)) / g).
      destruct (Rle_dec x1 x0) as [L|L].
      + assert (Le : e <= 1 - g * x1). { unfold x0 in L. apply Rle_div_r in L; lra. }
        assert (C : 0 <= c <= 1). { unfold c. assert (e / (1 - g * x1) <= 1) by (apply Rle_div_l; lra). assert (e <= e / (1 - g * x1)) by (apply Rle_div_r; nra). split; [apply Rle_div_r; lra|apply Rle_div_l; lra]. }
        eapply iR_eq; [|apply (iR_step _ c 1 0 C)]; [lra| |].
        * intros x Hx. destruct (Rle_dec _ s) as [|D]; [reflexivity|]. exfalso. apply D. apply ev_le; [exact H1|lra|]. fold e. fold c. lra.
        * intros x Hx. destruct (Rle_dec _ s) as [D|]; [|reflexivity]. exfalso. apply ev_le in D; [|exact H1|lra]. fold e in D. fold c in D. lra.
      + eapply iR_eq; [|apply (iR_const_on _ 0 1 0); [lra|]]; [ring|]. intros x Hx. destruct (Rle_dec _ s) as [D|]; [|reflexivity]. exfalso. apply ev_le in D; [|exact H1|lra]. fold e in D. fold c in D.
        assert (1 - g * x1 < e). { apply Rnot_le_lt in L. unfold x0 in L. apply Rlt_div_l in L; lra. } assert (1 < e / (1 - g * x1)) by (apply Rlt_div_r; lra). assert (c < 0) by (unfold c; apply Rlt_div_l; lra). lra.
    - eapply iR_eq; [|eapply (iR_chasles _ 0 x0 1)].
      2:{ apply (iR_ext (fun x1 => (1 - e / (1 - g * x1)) / g)); [lra| |].
          - intros x Hx. destruct (Rle_dec x x0); [reflexivity|lra].
          - apply (@is_RInt_derive R_CompleteNormedModule (fun x => x / g + e / (g * g) * ln (1 - g * x))).
            + rewrite Rmin_left, Rmax_right by lra. intros x Hx. assert (0 < 1 - g * x) by nra. auto_derive; [lra|]. field. lra.
            + rewrite Rmin_left, Rmax_right by lra. intros x Hx. assert (0 < 1 - g * x) by nra. apply (ex_derive_continuous (V := R_NormedModule)). auto_derive. lra. }
      2:{ apply (iR_const_on _ x0 1 0); [lra|]. intros x Hx. destruct (Rle_dec x x0); [lra|reflexivity]. }
      unfold minus, plus, opp. cbn. replace (1 - g * x0) with e by (unfold x0; field; lra). replace (1 - g * 0) with 1 by ring. rewrite ln_1. unfold e at 1. fold e. fold q. unfold e at 2. rewrite ln_exp. fold q. unfold ev_P. fold e. fold q. unfold x0. field. lra.
  Qed.
  Lemma ev_P_pos : 0 < ev_P (t * w).
  Proof.
    pose proof ev_g as G. unfold ev_P. replace (t * w / t) with w by (field; lra). apply Rdiv_lt_0_compat; [|nra].
    assert (X : 1 + w < exp w) by (apply exp_ineq1; lra). assert (Y : exp (- w) * exp w = 1) by (rewrite <- exp_plus; rewrite Rplus_opp_l; apply exp_0). pose proof (exp_pos (- w)). nra.
  Qed.
End Ev.

Lemma acc_R U E e : @accept R NumR U E e = true <-> 0 <= e <= E - U.
Proof. unfold accept. change (@nleb R NumR) with Rleb. change (@nofZ R NumR 0) with 0. change (@nsub R NumR E U) with (E - U). destruct (Rleb_spec 0 e), (Rleb_spec e (E - U)); cbn; split; intros; try discriminate; try reflexivity; lra. Qed.

Lemma ev_rejects temp U E t : temp E = Ok t -> rejects (@ev_sample R NumR temp U E) 2 (ev_phi t ((E - U) / t)) (fun l => 0 <= ev_phi t ((E - U) / t) l <= E - U).
Proof.
  intros Ht. split; [lia|]. split.
  - intros l r [L _] _. destruct l as [|x1 [|x2 [|]]]; try discriminate. cbn [app]. rewrite (ev_step temp U E t x1 x2 r Ht). cbv zeta. match goal with |- context [accept U E ?x] => change x with (ev_phi t ((E - U) / t) [x1; x2]) end.
    pose proof (acc_R U E (ev_phi t ((E - U) / t) [x1; x2])) as A. destruct (accept U E _); [left|right]; (split; [|reflexivity]).
    + apply A; reflexivity.
    + intros X. apply A in X. discriminate.
  - intros l L v r H. rewrite (ev_eq temp U E t l Ht) in H. destruct l as [|x1 [|x2 l]]; cbn in L; [discriminate| discriminate|lia].
Qed.
Lemma ev_law temp U E t e : temp E = Ok t -> 0 < t -> 0 < E - U -> 0 <= e <= E - U ->
  law (@ev_sample R NumR temp U E) (fun v => v <= e) ((1 - exp (- (e / t)) - e / t * exp (- (e / t))) / (1 - exp (- ((E - U) / t)) - (E - U) / t * exp (- ((E - U) / t)))).
Proof.
  intros Ht Pt D He. set (w := (E - U) / t). assert (Pw : 0 < w) by (apply Rdiv_lt_0_compat; lra). assert (Ew : t * w = E - U) by (unfold w; field; lra).
  pose proof (ev_P_pos t w Pt Pw) as PP. pose proof (ev_g w Pw) as G.
  assert (X : law (@ev_sample R NumR temp U E) (fun v => v <= e) (ev_P t w e / ev_P t w (t * w))).
  { apply (law_rejects _ 2 (ev_phi t w) (fun l => 0 <= ev_phi t w l <= E - U) (fun v => v <= e)); [apply ev_rejects; exact Ht| | |exact PP].
    - rewrite Ew. apply (prob_ext 2 (fun l => 0 <= ev_phi t w l <= E - U)); [intros; reflexivity|]. apply ev_prob; lra.
    - apply (prob_ext 2 (fun l => 0 <= ev_phi t w l <= e)); [intros; split; intros; lra|]. apply ev_prob; lra. }
  enough (EQ : ev_P t w e / ev_P t w (t * w) = (1 - exp (- (e / t)) - e / t * exp (- (e / t))) / (1 - exp (- w) - w * exp (- w))) by (rewrite <- EQ; exact X).
  unfold ev_P in *. replace (t * w / t) with w in * by (field; lra). assert (0 < 1 - exp (- w) - w * exp (- w)). { apply Rmult_lt_reg_r with (/ ((1 - exp (- w)) * (1 - exp (- w)))); [apply Rinv_0_lt_compat; nra|]. rewrite Rmult_0_l. exact PP. } field. lra.
Qed.
Lemma ev_integral_to t du : 0 < t -> iR (fun x => x * exp (- x / t)) 0 du (t * t * (1 - exp (- (du / t)) - du / t * exp (- (du / t)))).
Proof. intros Pt. eapply iR_eq; [|exact (ev_integral t du Pt)]. unfold ev_norm. replace (- du / t) with (- (du / t)) by (field; lra). ring. Qed.
Lemma ev_density temp U E t f : temp E = Ok t -> 0 < t -> 0 < E - U -> (forall x, @ev_pdf R NumR temp U E x = Ok (f x)) -> has_density (@ev_sample R NumR temp U E) 0 (E - U) f.
Proof.
  intros Ht Pt D F. assert (PN := ev_norm_pos t (E - U) Pt D). assert (EN : ev_norm t (E - U) = t * t * (1 - exp (- ((E - U) / t)) - (E - U) / t * exp (- ((E - U) / t)))) by (unfold ev_norm; replace (- (E - U) / t) with (- ((E - U) / t)) by (field; lra); ring).
  assert (PD : 0 < 1 - exp (- ((E - U) / t)) - (E - U) / t * exp (- ((E - U) / t))) by (apply Rmult_lt_reg_l with (t * t); [nra|rewrite Rmult_0_r, <- EN; exact PN]).
  split.
  - pose proof (ev_law temp U E t (E - U) Ht Pt D ltac:(lra)) as L. unfold Rdiv in L at 1. rewrite Rinv_r in L by lra. apply (law_ext _ (fun v => v <= E - U)); [|exact L]. intros v ds r H. apply ev_range in H as [A B]. change (@nleb R NumR) with Rleb in A. change (@nofZ R NumR 0) with 0 in A. apply Rleb_true in A. split; intros; lra.
  - intros e He. eexists. split; [exact (ev_law temp U E t e Ht Pt D He)|].
    apply (iR_ext (fun x => / ev_norm t (E - U) * (x * exp (- x / t)))); [lra| |].
    + intros x Hx. specialize (F x). rewrite (ev_pdf_inside temp U E t x Ht) in F by lra. apply Ok_eq in F. rewrite <- F. unfold Rdiv. ring.
    + eapply iR_eq; [|apply iR_scal, (ev_integral_to t e Pt)]. rewrite EN. remember (1 - exp (- ((E - U) / t)) - (E - U) / t * exp (- ((E - U) / t))) as D0. field. split; lra.
Qed.
