(** * Averages over the cosine of a function of the relative speed *)
From Coq Require Import Reals Lra Lia List Arith ZifyBool ZifyNat. From Coquelicot Require Import Coquelicot.
From Verif Require Import Base NumR L_Legendre L_Interp2 L_Spectra L_Spectra2 S_Prob L_Prob L_ProbEv L_Prob2 L_Gauss L_ProbMw L_ProbLaw L_ProbLoop L_ProbSvt L_ProbSvt2. Import ListNotations.
Local Open Scope R_scope.
Local Notation iR := (@is_RInt R_NormedModule).

Section Rel.
  Variable y : R. Hypothesis Hy : 0 < y.
  Definition rx (x mu : R) : R := sqrt (y * y + x * x - 2 * y * x * mu).
  Lemma rx_arg x mu : 0 <= x -> -1 <= mu <= 1 -> (y - x) * (y - x) <= y * y + x * x - 2 * y * x * mu <= (y + x) * (y + x).
  Proof. intros Hx Hm. assert (0 <= y * x) by nra. split; nra. Qed.
  Lemma rx_pos x mu : 0 <= rx x mu. Proof. apply sqrt_pos. Qed.
  Lemma rx_between x mu : 0 <= x -> -1 <= mu <= 1 -> Rabs (y - x) <= rx x mu <= y + x.
  Proof.
    intros Hx Hm. pose proof (rx_arg x mu Hx Hm) as [A B]. unfold rx. split.
    - rewrite <- sqrt_Rsqr_abs. apply sqrt_le_1_alt. unfold Rsqr. lra.
    - rewrite <- (sqrt_square (y + x)) by lra. apply sqrt_le_1_alt. lra.
  Qed.
  Lemma rx_sq x mu : 0 <= x -> -1 <= mu <= 1 -> rx x mu * rx x mu = y * y + x * x - 2 * y * x * mu.
  Proof. intros Hx Hm. apply sqrt_sqrt. pose proof (rx_arg x mu Hx Hm). pose proof (Rle_0_sqr (y - x)). unfold Rsqr in *. lra. Qed.
  Lemma rx_near x mu : 0 <= x -> -1 <= mu <= 1 -> Rabs (rx x mu - y) <= x.
  Proof. intros Hx Hm. pose proof (rx_between x mu Hx Hm) as [A B]. apply Rabs_le_between in A. apply Rabs_le_between. lra. Qed.
  Lemma rx_0 mu : rx 0 mu = y. Proof. unfold rx. replace (y * y + 0 * 0 - 2 * y * 0 * mu) with (y * y) by ring. apply sqrt_square. lra. Qed.
  Lemma rx_m1 x : 0 <= x -> rx x (- 1) = y + x. Proof. intros Hx. unfold rx. replace (y * y + x * x - 2 * y * x * - 1) with ((y + x) * (y + x)) by ring. apply sqrt_square. lra. Qed.
  Lemma rx_dec x m m' : 0 <= x -> m <= m' -> rx x m' <= rx x m.
  Proof. intros Hx H. apply sqrt_le_1_alt. assert (0 <= y * x) by nra. nra. Qed.
  Lemma rx_dec_lt x m m' : 0 < x -> -1 <= m -> m < m' -> m' <= 1 -> rx x m' < rx x m.
  Proof. intros Hx H0 H H1. apply sqrt_lt_1_alt. pose proof (rx_arg x m' ltac:(lra) ltac:(lra)). pose proof (Rle_0_sqr (y - x)). unfold Rsqr in *. assert (0 < y * x) by nra. nra. Qed.
  Lemma rx_cont_mu x mu : continuous (rx x) mu.
  Proof. unfold rx. apply (c_comp sqrt (fun mu => y * y + x * x - 2 * y * x * mu)); [apply edc; auto_derive; exact Logic.I|apply continuous_sqrt]. Qed.
  Lemma rx_cont_x x mu : continuous (fun x => rx x mu) x.
  Proof. unfold rx. apply (c_comp sqrt (fun x => y * y + x * x - 2 * y * x * mu)); [apply edc; auto_derive; exact Logic.I|apply continuous_sqrt]. Qed.

  (** [Phi] is an antiderivative of t K(t): the integral over the cosine becomes one over the relative speed *)
  Definition sub (K Phi : R -> R) : Prop := (forall t, 0 <= t -> continuous Phi t) /\ forall x M, 0 < x -> -1 <= M <= 1 -> iR (fun mu => K (rx x mu)) (- 1) M ((Phi (x + y) - Phi (rx x M)) / (x * y)).
  Lemma sub_from K Phi x a b : sub K Phi -> 0 < x -> -1 <= a <= 1 -> -1 <= b <= 1 -> iR (fun mu => K (rx x mu)) a b ((Phi (rx x a) - Phi (rx x b)) / (x * y)).
  Proof.
    intros [_ S] Hx Ha Hb. pose proof (S x a Hx Ha) as A. pose proof (S x b Hx Hb) as B. apply (@is_RInt_swap R_NormedModule) in A. pose proof (iR_chasles _ _ _ _ _ _ A B) as C. eapply iR_eq; [|exact C]. match goal with |- ?a = ?b => change (@eq R a b) end. unfold opp. cbn. field. split; lra.
  Qed.
  Lemma sub_cont K Phi : (forall t, 0 <= t -> continuous K t) -> (forall t, continuous Phi t) -> (forall t, 0 < t -> is_derive Phi t (t * K t)) -> sub K Phi.
  Proof.
    intros CK CP DP. split; [intros; apply CP|]. intros x M Hx HM. assert (Pxy : 0 < x * y) by nra.
    destruct (Rle_lt_or_eq_dec (- 1) M ltac:(lra)) as [LM| <-].
    - eapply iR_eq; [|apply (FTC_open (fun mu => - (Phi (rx x mu) / (x * y))) (fun mu => K (rx x mu)) (- 1) M LM)].
      + rewrite rx_m1 by lra. rewrite (Rplus_comm y x). field. lra.
      + intros mu Hm. pose proof (rx_arg x mu ltac:(lra) ltac:(lra)) as A. assert (Q : 0 < y * y + x * x - 2 * y * x * mu) by (pose proof (Rmult_lt_0_compat _ (1 - mu) Pxy ltac:(lra)); pose proof (Rle_0_sqr (y - x)); unfold Rsqr in *; lra). assert (Rp : 0 < rx x mu) by (apply sqrt_lt_R0; exact Q).
        assert (D1 : is_derive (rx x) mu (- (x * y) / rx x mu)). { unfold rx. auto_derive; [exact Q|]. match goal with |- _ = _ / ?r => change r with (rx x mu) end. replace (y * y + x * x + - (2 * y * x * mu)) with (y * y + x * x - 2 * y * x * mu) by ring. fold (rx x mu). field. lra. }
        pose proof (is_derive_comp Phi (rx x) mu _ _ (DP _ Rp) D1) as D2. apply (is_derive_scal _ _ (- / (x * y))) in D2. eapply is_derive_ext; [|eapply dR_val; [|exact D2]].
        * intros t. cbv beta. unfold Rdiv. match goal with |- ?a = ?b => change (@eq R a b) end. ring.
        * unfold scal, mult. cbn. unfold mult. cbn. field. split; lra.
      + intros mu. apply (c_comp K (rx x)); [apply rx_cont_mu|]. apply CK, rx_pos.
      + intros mu. apply (c_comp (fun t => - (t / (x * y))) (fun mu => Phi (rx x mu))); [apply (c_comp Phi (rx x)); [apply rx_cont_mu|apply CP]|apply edc; auto_derive; lra].
    - rewrite rx_m1 by lra. rewrite (Rplus_comm y x). eapply iR_eq; [|apply (@is_RInt_point R_NormedModule)]. unfold zero. cbn. unfold Rdiv. ring.
  Qed.
  (** a cut of [K] at the relative speed [h] *)
  Lemma sub_cut K Phi (p : R -> bool) h : 0 <= h -> sub K Phi -> (forall t, 0 <= t -> t < h -> p t = true) -> (forall t, h < t -> p t = false) -> sub (fun t => if p t then K t else 0) (fun t => Phi (Rmin t h)).
  Proof.
    intros Hh SK P1 P0. split.
    - intros t Ht. apply (c_comp Phi (fun t => Rmin t h)); [|apply (proj1 SK); apply Rmin_glb; lra]. apply (continuous_ext (fun t => - Rmax (- t) (- h))).
      + intros u. unfold Rmax, Rmin. destruct (Rle_dec (- u) (- h)), (Rle_dec u h); lra.
      + apply (c_comp Ropp (fun t => Rmax (- t) (- h))); [|apply edc; auto_derive; exact Logic.I]. apply (c_comp (fun t => Rmax t (- h)) Ropp); [apply edc; auto_derive; exact Logic.I|apply c_max].
    - intros x M Hx HM. assert (Pxy : 0 < x * y) by nra.
      (* the cosine at which the relative speed is h *)
      set (mh := (y * y + x * x - h * h) / (2 * y * x)). assert (Eh : rx x mh = h). { unfold rx, mh. replace (y * y + x * x - 2 * y * x * ((y * y + x * x - h * h) / (2 * y * x))) with (h * h) by (field; lra). apply sqrt_square. exact Hh. }
      set (c := Rmin M (Rmax (- 1) mh)). assert (Cc : -1 <= c <= M) by (unfold c, Rmin, Rmax; destruct (Rle_dec (- 1) mh), (Rle_dec M _); lra).
      assert (Gt : forall mu, mu < c -> -1 <= mu -> mu <= 1 -> h < rx x mu). { intros mu H1 H2 H3. unfold rx. rewrite <- (sqrt_square h) by exact Hh. apply sqrt_lt_1_alt. assert (mu < mh) as Q by (unfold c, Rmin, Rmax in H1; destruct (Rle_dec (- 1) mh), (Rle_dec M _); lra). unfold mh in Q. apply Rlt_div_r in Q; [|lra]. split; [apply Rle_0_sqr|lra]. }
      assert (Lt : forall mu, c < mu -> mu < M -> -1 <= mu -> mu <= 1 -> rx x mu < h). { intros mu H1 H0 H2 H3. unfold rx. rewrite <- (sqrt_square h) by exact Hh. apply sqrt_lt_1_alt. assert (mh < mu) as Q by (unfold c, Rmin, Rmax in H1; destruct (Rle_dec (- 1) mh), (Rle_dec M _); lra). unfold mh in Q. apply Rlt_div_l in Q; [|lra]. split; [|lra]. pose proof (rx_arg x mu ltac:(lra) ltac:(lra)). pose proof (Rle_0_sqr (y - x)). unfold Rsqr in *. lra. }
      pose proof (iR_const_on (fun mu => if p (rx x mu) then K (rx x mu) else 0) (- 1) c 0 ltac:(lra)) as I1. pose proof (sub_from K Phi x c M SK Hx ltac:(lra) ltac:(lra)) as I2. apply (iR_ext _ (fun mu => if p (rx x mu) then K (rx x mu) else 0)) in I2; [|lra|].
      2:{ intros mu Hm. rewrite P1; [reflexivity|apply rx_pos|apply Lt; lra]. }
      eapply iR_eq; [|eapply iR_chasles; [apply I1|exact I2]]; [|intros mu Hm; rewrite P0; [reflexivity|apply Gt; lra]].
      assert (F1 : c = - 1 \/ c <= mh) by (unfold c, Rmin, Rmax; destruct (Rle_dec (- 1) mh), (Rle_dec M _); lra). assert (F2 : c = M \/ mh <= c) by (unfold c, Rmin, Rmax; destruct (Rle_dec (- 1) mh), (Rle_dec M _); lra).
      assert (Q1 : Rmin (x + y) h = Rmin (rx x c) h). { destruct F1 as [F1|F1]; [rewrite F1, rx_m1, Rplus_comm by lra; reflexivity|]. assert (h <= rx x c) by (rewrite <- Eh; apply rx_dec; lra). pose proof (rx_between x c ltac:(lra) ltac:(lra)). rewrite !Rmin_right by lra. reflexivity. }
      assert (Q2 : Phi (Rmin (rx x c) h) - Phi (Rmin (rx x M) h) = Phi (rx x c) - Phi (rx x M)). { destruct F2 as [F2|F2]; [rewrite F2; ring|]. assert (rx x c <= h) by (rewrite <- Eh; apply rx_dec; lra). assert (rx x M <= rx x c) by (apply rx_dec; lra). rewrite !Rmin_left by lra. reflexivity. }
      rewrite Q1, Q2. ring.
  Qed.
  Lemma sub_minus K1 Phi1 K2 Phi2 : sub K1 Phi1 -> sub K2 Phi2 -> sub (fun t => K1 t - K2 t) (fun t => Phi1 t - Phi2 t).
  Proof.
    intros [C1 S1] [C2 S2]. split; [intros t Ht; apply (@continuous_minus R_UniformSpace R_AbsRing R_NormedModule); [apply C1|apply C2]; exact Ht|]. intros x M Hx HM. eapply iR_eq; [|apply (@is_RInt_minus R_NormedModule _ _ _ _ _ _ (S1 x M Hx HM) (S2 x M Hx HM))]. unfold minus, plus, opp. cbn. unfold Rdiv. ring.
  Qed.
  Lemma sub_ext K K' Phi : (forall t, 0 <= t -> K t = K' t) -> sub K Phi -> sub K' Phi.
  Proof. intros E [C S1]. split; [exact C|]. intros x M Hx HM. apply (@is_RInt_ext R_NormedModule (fun mu => K (rx x mu))); [|apply S1; assumption]. intros mu _. apply E, rx_pos. Qed.

  Section Mean.
    Variables (K Phi : R -> R) (M : R).
    Hypothesis SK : sub K Phi.
    Hypothesis KB : forall t, 0 <= t -> 0 <= K t <= t.
    Hypothesis Ky : continuous K y.
    Hypothesis HM : -1 <= M <= 1.
    (** the acceptance probability given the reduced target speed squared and the random number of the cosine *)
    Definition acc (w m : R) : R := K (rx (sqrt w) (2 * m - 1)) / (sqrt w + y).
    Definition mean (w : R) : R := RInt (acc w) 0 ((M + 1) / 2).
    Lemma acc_bounds w m : 0 < m < 1 -> 0 <= acc w m <= 1.
    Proof.
      intros Hm. unfold acc. pose proof (sqrt_pos w) as W. pose proof (KB _ (rx_pos (sqrt w) (2 * m - 1))) as B. pose proof (rx_between (sqrt w) (2 * m - 1) W ltac:(lra)) as B2. split; [apply Rle_div_r; lra|apply Rle_div_l; lra].
    Qed.
    Lemma acc_int w : 0 < w -> iR (acc w) 0 ((M + 1) / 2) ((Phi (sqrt w + y) - Phi (rx (sqrt w) M)) / (sqrt w * y) / (2 * (sqrt w + y))).
    Proof.
      intros Hw. assert (W : 0 < sqrt w) by (apply sqrt_lt_R0; exact Hw). pose proof (proj2 SK (sqrt w) M W HM) as Q. replace (- 1) with (2 * 0 + - 1) in Q by ring. replace M with (2 * ((M + 1) / 2) + - 1) in Q at 1 by field. apply (@is_RInt_comp_lin R_NormedModule) in Q. apply (@is_RInt_scal R_NormedModule _ _ _ (/ (2 * (sqrt w + y)))) in Q.
      eapply iR_eq; [|eapply is_RInt_ext; [|exact Q]].
      - unfold scal. cbn. unfold mult. cbn. unfold Rdiv. ring.
      - intros m _. unfold acc, scal. cbn. unfold mult. cbn. replace (2 * m + - 1) with (2 * m - 1) by ring. match goal with |- ?a = ?b => change (@eq R a b) end. field. lra.
    Qed.
    Lemma acc_int0 w : w <= 0 -> iR (acc w) 0 ((M + 1) / 2) ((M + 1) / 2 * (K y / y)).
    Proof. intros Hw. eapply iR_eq; [|apply (iR_const_on _ 0 ((M + 1) / 2) (K y / y)); [lra|]]; [ring|]. intros m _. unfold acc. rewrite (sqrt_neg_0 w Hw), rx_0, Rplus_0_l. reflexivity. Qed.
    Lemma acc_mean w : iR (acc w) 0 ((M + 1) / 2) (mean w).
    Proof. unfold mean. apply (@RInt_correct R_CompleteNormedModule). destruct (Rlt_dec 0 w) as [W|W]; [eexists; apply acc_int; exact W|eexists; apply acc_int0; lra]. Qed.
    Lemma mean_cont w : 0 <= w -> continuity_pt mean w.
    Proof.
      intros Hw. apply continuity_pt_filterlim. change (continuous mean w). destruct (Rle_lt_or_eq_dec 0 w Hw) as [W|<-].
      - apply (continuous_ext_loc (T := R_UniformSpace) _ (fun w => (Phi (sqrt w + y) - Phi (rx (sqrt w) M)) / (sqrt w * y) / (2 * (sqrt w + y)))).
        + exists (mkposreal w W). intros v Hv. unfold ball in Hv. cbn in Hv. unfold AbsRing_ball, abs, minus, plus, opp in Hv. cbn in Hv. apply Rabs_lt_between in Hv. symmetry. apply (@is_RInt_unique R_CompleteNormedModule). apply acc_int. lra.
        + apply (c_comp (fun x => (Phi (x + y) - Phi (rx x M)) / (x * y) / (2 * (x + y))) sqrt); [apply continuous_sqrt|]. assert (X : 0 < sqrt w) by (apply sqrt_lt_R0; exact W). set (x := sqrt w) in *.
          apply (@continuous_mult R_UniformSpace R_AbsRing).
          * apply (@continuous_mult R_UniformSpace R_AbsRing); [|apply edc; auto_derive; nra]. apply (@continuous_minus R_UniformSpace R_AbsRing R_NormedModule).
            -- apply (c_comp Phi (fun x => x + y)); [apply edc; auto_derive; exact Logic.I|apply (proj1 SK); lra].
            -- apply (c_comp Phi (fun x => rx x M)); [apply rx_cont_x|apply (proj1 SK); apply rx_pos].
          * apply edc. auto_derive. lra.
      - apply continuity_pt_filterlim. intros eps He. assert (P2 : 0 < eps * y / 4) by nra. apply continuity_pt_filterlim in Ky. destruct (Ky (eps * y / 4) P2) as (d & Hd & KD).
        exists (Rmin (d / 2) (eps * y / 8) * Rmin (d / 2) (eps * y / 8)). set (q := Rmin (d / 2) (eps * y / 8)). assert (Q : 0 < q) by (apply Rmin_glb_lt; lra). split; [nra|]. intros v (_ & Hv). unfold dist in *. cbn in *. unfold R_dist in *. rewrite Rminus_0_r in Hv.
        assert (X : sqrt v < q). { destruct (Rle_dec v 0) as [L|L]; [rewrite (sqrt_neg_0 v L); exact Q|]. rewrite <- (sqrt_square q) by lra. apply sqrt_lt_1_alt. rewrite Rabs_pos_eq in Hv by lra. lra. }
        pose proof (sqrt_pos v) as X0. set (x := sqrt v) in *. assert (q <= d / 2) by apply Rmin_l. assert (q <= eps * y / 8) by apply Rmin_r.
        pose proof (acc_mean v) as I1. pose proof (acc_mean 0) as I0. pose proof (@is_RInt_minus R_NormedModule _ _ _ _ _ _ I1 I0) as I2. apply (@is_RInt_unique R_CompleteNormedModule) in I2 as U. change (minus (mean v) (mean 0)) with (mean v - mean 0) in U. match goal with |- Rabs ?e < _ => change e with (mean v - mean 0) end. rewrite <- U.
        apply Rle_lt_trans with (((M + 1) / 2 - 0) * (eps / 2)); [|nra]. apply (abs_RInt_le_const (fun m => minus (acc v m) (acc 0 m))); [lra|eexists; exact I2|].
        intros m Hm. change (Rabs (acc v m - acc 0 m) <= eps / 2). unfold acc. rewrite sqrt_0, rx_0, Rplus_0_l. fold x. pose proof (rx_near x (2 * m - 1) X0 ltac:(lra)) as N. set (t := rx x (2 * m - 1)) in *.
        assert (A : Rabs (K t - K y) <= eps * y / 4). { destruct (Req_dec t y) as [->|NE]; [rewrite Rminus_eq_0, Rabs_R0; lra|]. left. apply KD. split; [split; [exact Logic.I|intros E; apply NE; symmetry; exact E]|lra]. }
        pose proof (KB y ltac:(lra)) as B. replace (K t / (x + y) - K y / y) with ((K t - K y) / (x + y) - K y * x / (y * (x + y))) by (field; lra). eapply Rle_trans; [apply Rabs_triang|]. rewrite Rabs_Ropp.
        assert (A1 : Rabs ((K t - K y) / (x + y)) <= eps / 4). { unfold Rdiv. rewrite Rabs_mult, (Rabs_pos_eq (/ (x + y))) by (left; apply Rinv_0_lt_compat; lra). apply Rle_div_l; [lra|]. nra. }
        assert (A2 : Rabs (K y * x / (y * (x + y))) <= eps / 8). { rewrite Rabs_pos_eq by (apply Rle_div_r; nra). apply Rle_div_l; [nra|]. assert (K y * x <= y * (eps * y / 8)) by (apply Rmult_le_compat; lra). nra. }
        lra.
    Qed.
  End Mean.
End Rel.
