(** * Free-gas and DBRC target sampling: proofs *)
From Coq Require Import Reals Lra Lia List ZifyBool ZifyNat.
From Verif Require Import Base NumR L_Search L_SearchR M_Kin S_Kin L_Kin L_KinE M_Grid S_Grid L_Grid L_Xs L_Xs2 L_Xs3 M_Doppler S_Doppler.
Import ListNotations.
Local Open Scope R_scope.

Definition units (ds : list R) : Prop := forall d, In d ds -> 0 < d < 1.

Lemma proposal_pos y l x2 mu : units l -> svt_proposal y l x2 mu -> 0 < x2 /\ -1 < mu < 1 /\ (4 <= length l)%nat.
Proof.
  assert (Hln : forall d, 0 < d < 1 -> ln d < 0) by (intros d Hd; rewrite <- ln_1; apply ln_increasing; lra).
  intros U H. destruct H as [xi a b m H|xi a b d m H].
  - assert (0 < a < 1) by (apply U; cbn; tauto). assert (0 < b < 1) by (apply U; cbn; tauto). assert (0 < m < 1) by (apply U; cbn; tauto).
    rewrite ln_mult by lra. pose proof (Hln a). pose proof (Hln b). cbn. split; [lra|]. split; [lra|lia].
  - assert (0 < d < 1) by (apply U; cbn; tauto). assert (0 < b < 1) by (apply U; cbn; tauto). assert (0 < m < 1) by (apply U; cbn; tauto).
    pose proof (Hln b). pose proof (Hln d). set (c := cos _). assert (0 <= c * c) by nra. cbn. split; [nra|]. split; [lra|lia].
Qed.

(** the code's acceptance test, in reduced units, is the physical one *)
Lemma accept_equiv Ein kT awr x2 mu r : 0 <= Ein -> 0 < kT -> 0 < awr -> 0 < x2 -> -1 <= mu <= 1 ->
  let y := reduced Ein kT awr in
  (r < sqrt (y * y + x2 - 2 * y * sqrt x2 * mu) / (sqrt x2 + y) <-> svt_accepts Ein (target_speed kT awr x2) mu r).
Proof.
  intros HE Hk Ha Hx Hm y. unfold svt_accepts, relative_speed, target_speed.
  set (s := sqrt (kT / awr)).
  assert (Hka : 0 < kT / awr) by (apply Rdiv_lt_0_compat; lra).
  assert (Hs : 0 < s) by (apply sqrt_lt_R0; exact Hka).
  assert (Hss : s * s = kT / awr) by (apply sqrt_sqrt; lra).
  assert (Hak : 0 <= awr * Ein / kT) by (apply Rmult_le_pos; [apply Rmult_le_pos; lra|left; apply Rinv_0_lt_compat; lra]).
  assert (Hy0 : 0 <= y) by (apply sqrt_pos).
  assert (Hx0 : 0 < sqrt x2) by (apply sqrt_lt_R0; exact Hx).
  assert (HV : sqrt (x2 * kT / awr) = sqrt x2 * s).
  { unfold s. rewrite <- sqrt_mult by lra. f_equal. field. lra. }
  assert (HN : sqrt Ein = y * s).
  { unfold y, reduced, s. rewrite <- sqrt_mult by lra. f_equal. field. lra. }
  assert (HEE : Ein = y * s * (y * s)) by (rewrite <- HN; symmetry; apply sqrt_sqrt; lra).
  rewrite HV, HN.
  set (q := y * y + x2 - 2 * y * sqrt x2 * mu).
  assert (Hxx : sqrt x2 * sqrt x2 = x2) by (apply sqrt_sqrt; lra).
  assert (Hq : 0 <= q).
  { unfold q. replace (y * y + x2) with (y * y + sqrt x2 * sqrt x2) by lra. assert (0 <= y * sqrt x2) by (apply Rmult_le_pos; lra). set (x := sqrt x2) in *.
    pose proof (Rle_0_sqr (y - x)) as S1. unfold Rsqr in S1. assert (0 <= y * x * (1 - mu)) by (apply Rmult_le_pos; [assumption|lra]). lra. }
  replace (Ein + sqrt x2 * s * (sqrt x2 * s) - 2 * (y * s) * (sqrt x2 * s) * mu) with (q * (s * s)).
  2:{ unfold q. rewrite HEE at 1. replace (y * y + x2) with (y * y + sqrt x2 * sqrt x2) by lra. ring. }
  rewrite sqrt_mult by (try assumption; nra). rewrite sqrt_square by lra.
  replace (r * (y * s + sqrt x2 * s)) with (r * (sqrt x2 + y) * s) by ring.
  split; intros H.
  - apply Rmult_lt_compat_r; [exact Hs|]. apply Rmult_lt_compat_r with (r := sqrt x2 + y) in H; [|lra].
    replace (sqrt q / (sqrt x2 + y) * (sqrt x2 + y)) with (sqrt q) in H by (field; lra). exact H.
  - apply Rmult_lt_reg_r in H; [|exact Hs]. apply Rmult_lt_reg_r with (sqrt x2 + y); [lra|].
    replace (sqrt q / (sqrt x2 + y) * (sqrt x2 + y)) with (sqrt q) by (field; lra). exact H.
Qed.
Lemma accept_prob Ein V mu : 0 <= Ein -> 0 <= V -> -1 <= mu <= 1 -> 0 <= relative_speed Ein V mu <= sqrt Ein + V.
Proof.
  intros HE HV Hm. unfold relative_speed. split; [apply sqrt_pos|].
  pose proof (sqrt_pos Ein). rewrite <- (sqrt_square (sqrt Ein + V)) by lra. apply sqrt_le_1_alt.
  assert (sqrt Ein * sqrt Ein = Ein) by (apply sqrt_sqrt; lra). assert (0 <= sqrt Ein * V) by (apply Rmult_le_pos; lra). nra.
Qed.
Lemma velocity_facts V mu phi : -1 <= mu <= 1 -> 
  norm2 (velocity V mu phi) = V * V /\ vz (velocity V mu phi) = V * mu.
Proof.
  intros Hm. unfold norm2, velocity. cbn [vx vy vz]. split; [|reflexivity].
  assert (Q : sqrt (1 - mu * mu) * sqrt (1 - mu * mu) = 1 - mu * mu) by (apply sqrt_sqrt; nra).
  pose proof (sin2_cos2 phi) as T. unfold Rsqr in T. set (c := sqrt _) in *.
  transitivity (V * V * (c * c) * (sin phi * sin phi + cos phi * cos phi) + V * V * (mu * mu)); [ring|]. rewrite T, Q. ring.
Qed.
Lemma relative_energy_velocity Ein V mu phi : 0 <= Ein -> -1 <= mu <= 1 -> 
  relative_energy Ein (velocity V mu phi) = Ein + V * V - 2 * sqrt Ein * V * mu.
Proof.
  intros HE Hm. destruct (velocity_facts V mu phi Hm) as [H1 H2]. unfold relative_energy.
  assert (E : norm2 (S_Kin.lin 1 (mkVec 0 0 (sqrt Ein)) (-1) (velocity V mu phi)) =
    sqrt Ein * sqrt Ein + norm2 (velocity V mu phi) - 2 * sqrt Ein * vz (velocity V mu phi)) by (unfold norm2, S_Kin.lin; cbn [vx vy vz]; ring).
  rewrite E, H1, H2, sqrt_sqrt by lra. ring.
Qed.

Section Svt.
  Variables (Ein kT awr : R).
  Hypotheses (HE : 0 <= Ein) (Hk : 0 < kT) (Ha : 0 < awr).
  Let y := reduced Ein kT awr.

  Lemma svt_loop_sound fuel : forall ds x2 mu ds', units ds -> @svt_loop R NumR fuel y ds = Ok ((x2, mu), ds') ->
    exists l, ds = l ++ ds' /\ svt_run Ein kT awr l x2 mu.
  Proof.
    induction fuel as [|f IH]; intros ds x2 mu ds' U H; cbn [svt_loop] in H; [discriminate|].
    apply rbind_ok in H as (xi & d1 & H1 & H). apply draw_ok in H1 as ->.
    apply rbind_ok in H as (x2' & d2 & H2 & H).
    apply rbind_ok in H as (m & d3 & H3 & H). apply draw_ok in H3 as ->.
    apply rbind_ok in H as (r & d4 & H4 & H). apply draw_ok in H4 as ->.
    assert (P : exists l, xi :: d1 = l ++ r :: d4 /\ svt_proposal y l x2' (2 * m - 1)).
    { change (@nltb R NumR) with Rltb in H2. change (@ndiv R NumR (nofZ 2) (nadd (nmul (nsqrt npi) y) (nofZ 2))) with (2 / (sqrt PI * y + 2)) in H2.
      destruct (Rltb_spec xi (2 / (sqrt PI * y + 2))) as [L|L].
      - apply rbind_ok in H2 as (a & e1 & A1 & H2). apply draw_ok in A1 as ->. apply rbind_ok in H2 as (b & e2 & A2 & H2). apply draw_ok in A2 as ->.
        apply rret_ok in H2 as [<- ->]. exists [xi; a; b; m]. split; [reflexivity|]. apply prop_first; exact L.
      - apply rbind_ok in H2 as (a & e1 & A1 & H2). apply draw_ok in A1 as ->. apply rbind_ok in H2 as (b & e2 & A2 & H2). apply draw_ok in A2 as ->.
        apply rbind_ok in H2 as (d & e3 & A3 & H2). apply draw_ok in A3 as ->.
        apply rret_ok in H2 as [<- ->]. exists [xi; a; b; d; m]. split; [reflexivity|]. apply prop_second; lra. }
    destruct P as (l & El & P).
    assert (Ul : units l) by (intros d Hd; apply U; rewrite El; apply in_or_app; left; exact Hd).
    destruct (proposal_pos _ _ _ _ Ul P) as (X1 & X2 & _).
    change (@nltb R NumR) with Rltb in H.
    pose proof (accept_equiv Ein kT awr x2' (2 * m - 1) r HE Hk Ha X1 ltac:(lra)) as Q. cbv zeta in Q. fold y in Q.
    change (@ndiv R NumR (nsqrt (nsub (nadd (nmul y y) x2') (nmul (nmul (nmul (nofZ 2) y) (nsqrt x2')) (nsub (nmul (nofZ 2) m) (nofZ 1)))))
      (nadd (nsqrt x2') y)) with (sqrt (y * y + x2' - 2 * y * sqrt x2' * (2 * m - 1)) / (sqrt x2' + y)) in H.
    change (nsub (nmul (nofZ 2) m) (nofZ 1)) with (2 * m - 1) in H.
    destruct (Rltb_spec r (sqrt (y * y + x2' - 2 * y * sqrt x2' * (2 * m - 1)) / (sqrt x2' + y))) as [L|L].
    - apply rret_ok in H as [H <-]. injection H as <- <-. exists (l ++ [r]). split; [rewrite El, <- app_assoc; reflexivity|].
      apply run_accept; [exact P|apply Q; exact L].
    - apply IH in H as (l' & -> & Hl'). 2:{ intros d Hd. apply U. rewrite El. apply in_or_app. right. right. exact Hd. }
      exists (l ++ r :: l'). split; [rewrite El, <- app_assoc; reflexivity|].
      eapply run_reject; [exact P| |exact Hl']. intros C. apply Q in C. lra.
  Qed.
  Lemma svt_loop_complete l x2 mu : svt_run Ein kT awr l x2 mu -> units l -> forall fuel ds', (length l < fuel)%nat ->
    @svt_loop R NumR fuel y (l ++ ds') = Ok ((x2, mu), ds').
  Proof.
    assert (ST : forall fuel l r x2 mu rest, svt_proposal y l x2 mu -> 0 < x2 -> -1 < mu < 1 -> 
      @svt_loop R NumR (S fuel) y (l ++ r :: rest) = 
      if Rltb r (sqrt (y * y + x2 - 2 * y * sqrt x2 * mu) / (sqrt x2 + y)) then Ok ((x2, mu), rest) else @svt_loop R NumR fuel y rest).
    { intros f l0 r X m rest P _ _. destruct P as [xi a b m0 L|xi a b d m0 L].
      - cbn [svt_loop app]. unfold rbind at 1. cbn [draw bind]. change (@nltb R NumR) with Rltb.
        change (@ndiv R NumR (nofZ 2) (nadd (nmul (nsqrt npi) y) (nofZ 2))) with (2 / (sqrt PI * y + 2)).
        rewrite (proj2 (Rltb_true _ _) L). cbn [rbind draw bind rret app].
        match goal with |- (if Rltb r ?t' then _ else _) _ = (if Rltb r ?t then _ else _) => change t' with t; destruct (Rltb r t); reflexivity end.
      - cbn [svt_loop app]. unfold rbind at 1. cbn [draw bind]. change (@nltb R NumR) with Rltb.
        change (@ndiv R NumR (nofZ 2) (nadd (nmul (nsqrt npi) y) (nofZ 2))) with (2 / (sqrt PI * y + 2)).
        assert (~ xi < 2 / (sqrt PI * y + 2)) by lra. rewrite (proj2 (Rltb_false _ _)) by exact L. cbn [rbind draw bind rret app].
        match goal with |- (if Rltb r ?t' then _ else _) _ = (if Rltb r ?t then _ else _) => change t' with t; destruct (Rltb r t); reflexivity end. }
    induction 1 as [l r x2 mu P A|l r x2' mu' l' x2 mu P A Hr IH]; intros U fuel ds' F.
    - assert (Ul : units l) by (intros d Hd; apply U; apply in_or_app; left; exact Hd).
      destruct (proposal_pos _ _ _ _ Ul P) as (X1 & X2 & _). destruct fuel as [|f]; [rewrite app_length in F; cbn in F; lia|].
      rewrite <- app_assoc. cbn [app]. rewrite (ST f l r x2 mu ds' P X1 X2).
      apply (accept_equiv Ein kT awr x2 mu r HE Hk Ha X1 ltac:(lra)) in A. cbv zeta in A. fold y in A. rewrite (proj2 (Rltb_true _ _) A). reflexivity.
    - assert (Ul : units l) by (intros d Hd; apply U; apply in_or_app; left; exact Hd).
      destruct (proposal_pos _ _ _ _ Ul P) as (X1 & X2 & _). destruct fuel as [|f]; [rewrite app_length in F; cbn in F; lia|].
      rewrite <- app_assoc. cbn [app]. rewrite (ST f l r x2' mu' (l' ++ ds') P X1 X2).
      pose proof (accept_equiv Ein kT awr x2' mu' r HE Hk Ha X1 ltac:(lra)) as Q. cbv zeta in Q. fold y in Q.
      rewrite (proj2 (Rltb_false _ _)). 2:{ apply Rnot_lt_le. rewrite Q. exact A. }
      apply IH; [|rewrite app_length in F; cbn in F; lia]. intros d Hd. apply U. apply in_or_app. right. right. exact Hd.
  Qed.
  (** the loop never fails otherwise than by running out of random numbers *)
  Definition only_draws {A} (r : res A) : Prop := match r with Ok _ | NoDraw => True | _ => False end.
  Lemma only_draws_or {A} (r : res A) : only_draws r -> (exists a, r = Ok a) \/ r = NoDraw.
  Proof. destruct r; cbn; try tauto. left. eexists. reflexivity. Qed.
  Lemma svt_loop_only fuel : forall ds, only_draws (@svt_loop R NumR fuel y ds).
  Proof.
    clear. induction fuel as [|f IH]; intros ds; [exact I|]. cbn [svt_loop].
    destruct ds as [|xi d1]; [exact I|]. unfold rbind at 1. cbn [draw bind].
    destruct (nltb xi _).
    - destruct d1 as [|a [|b [|m [|r d1]]]]; try exact I. cbn [rbind draw bind rret].
      match goal with |- context [nltb ?a ?b] => destruct (nltb a b) end; [exact I|apply IH].
    - destruct d1 as [|a [|b [|d [|m [|r d1]]]]]; try exact I. cbn [rbind draw bind rret].
      match goal with |- context [nltb ?a ?b] => destruct (nltb a b) end; [exact I|apply IH].
  Qed.
  Lemma svt_loop_total fuel ds : (exists r, @svt_loop R NumR fuel y ds = Ok r) \/ @svt_loop R NumR fuel y ds = NoDraw.
  Proof. apply only_draws_or, svt_loop_only. Qed.
  Lemma rotate_z mu phi : -1 <= mu <= 1 -> 0 <= phi <= 2 * PI -> forall V,
    @vmul R NumR (rotate (mkVec 0 0 1) mu phi) V = velocity V mu phi.
  Proof.
    clear. intros Hm Hp V. unfold rotate. cbn [nlit]. 
    assert (C1 : @clamp R NumR (-1) 1 mu = mu) by (unfold clamp; rnum; rcase1; [lra|]; rcase1; lra).
    assert (C2 : @clamp R NumR 0 (2 * PI) phi = phi) by (unfold clamp; rnum; rcase1; [lra|]; rcase1; lra).
    change (@nopp R NumR (nofZ 1)) with (- (1)). change (@nofZ R NumR 1) with 1. change (@nofZ R NumR 0) with 0.
    change (@nmul R NumR (nofZ 2) npi) with (2 * PI). replace (- (1)) with (-1) by lra. rewrite C1, C2.
    rnum. replace (1 - 1 * 1) with 0 by ring. rewrite Rabs_R0.
    match goal with |- context [Rltb ?a ?b] => destruct (Rltb_spec a b) as [L|L] end; [exfalso; lra|].
    replace (1 - 0 * 0) with 1 by ring. rewrite sqrt_1. unfold vmul, velocity. cbn [vx vy vz]. rnum. f_equal; field.
  Qed.
  Lemma svt_sample_run ds v ds' : units ds ->
    (@svt_sample R NumR Ein kT awr ds = Ok (v, ds') <-> exists l, ds = l ++ ds' /\ svt_velocity Ein kT awr l v).
  Proof.
    intros U. unfold svt_sample.
    change (@nsqrt R NumR (ndiv (nmul awr Ein) kT)) with y. split.
    - intros H. apply rbind_ok in H as ([x2 mu] & d1 & H1 & H). apply svt_loop_sound in H1 as (l & -> & Hr); [|exact U].
      apply rbind_ok in H as (xi & d2 & H2 & H). apply draw_ok in H2 as ->. apply rret_ok in H as [H ->].
      assert (Hxi : 0 < xi < 1) by (apply U; apply in_or_app; right; left; reflexivity).
      assert (Ul : units l) by (intros d Hd; apply U; apply in_or_app; left; exact Hd).
      assert (Hm : -1 < mu < 1).
      { clear - Hr Ul. induction Hr as [l r x2 mu P A|l r x2' mu' l' x2 mu P A Hr IH].
        - eapply proposal_pos; [|exact P]. intros d Hd. apply Ul. apply in_or_app. left. exact Hd.
        - apply IH. intros d Hd. apply Ul. apply in_or_app. right. right. exact Hd. }
      exists (l ++ [xi]). split; [rewrite <- app_assoc; reflexivity|]. exists l, xi, x2, mu. split; [reflexivity|]. split; [exact Hr|].
      rewrite <- H. change (@nsqrt R NumR (ndiv (nmul x2 kT) awr)) with (target_speed kT awr x2).
      change (mkVec (nofZ 0) (nofZ 0) (nofZ 1)) with (mkVec 0 0 1). change (nmul (nmul (nofZ 2) npi) xi) with (2 * PI * xi).
      pose proof PI_RGT_0. apply rotate_z; [lra|]. split; [apply Rmult_le_pos; lra|nra].
    - intros (l & -> & l0 & xi & x2 & mu & -> & Hr & ->). 
      assert (Ul : units l0) by (intros d Hd; apply U; apply in_or_app; left; apply in_or_app; left; exact Hd).
      assert (Hxi : 0 < xi < 1) by (apply U; apply in_or_app; left; apply in_or_app; right; left; reflexivity).
      assert (Hm : -1 < mu < 1).
      { clear - Hr Ul. induction Hr as [l r x2 mu P A|l r x2' mu' l' x2 mu P A Hr IH].
        - eapply proposal_pos; [|exact P]. intros d Hd. apply Ul. apply in_or_app. left. exact Hd.
        - apply IH. intros d Hd. apply Ul. apply in_or_app. right. right. exact Hd. }
      rewrite <- app_assoc. cbn [app]. unfold rbind at 1. rewrite svt_loop_complete with (x2 := x2) (mu := mu) (l := l0); [|exact Hr|exact Ul|].
      2:{ rewrite app_length. lia. }
      cbn [bind rbind draw rret]. unfold rbind. cbn [draw bind]. unfold rret. f_equal. f_equal.
      change (@nsqrt R NumR (ndiv (nmul x2 kT) awr)) with (target_speed kT awr x2).
      change (mkVec (nofZ 0) (nofZ 0) (nofZ 1)) with (mkVec 0 0 1). change (nmul (nmul (nofZ 2) npi) xi) with (2 * PI * xi).
      pose proof PI_RGT_0. apply rotate_z; [lra|]. split; [apply Rmult_le_pos; lra|nra].
  Qed.
  Lemma svt_sample_total ds : (exists r, @svt_sample R NumR Ein kT awr ds = Ok r) \/ @svt_sample R NumR Ein kT awr ds = NoDraw.
  Proof.
    clear HE Hk Ha. apply only_draws_or. unfold svt_sample. change (@nsqrt R NumR (ndiv (nmul awr Ein) kT)) with y. unfold rbind at 1.
    destruct (svt_loop_total (S (length ds)) ds) as [([[x2 mu] d1] & ->)| ->]; [|exact I]. cbn [bind].
    destruct d1 as [|xi d1]; exact I.
  Qed.
End Svt.

(** the majorant is the maximum of the cross section over the window *)
Lemma max_loop_attained vals : forall n i m M, @max_loop R NumR n vals i m = Ok M -> (0 <= i)%Z -> (i + Z.of_nat n <= sizeZ vals)%Z ->
  M = m \/ exists k, (i <= k < i + Z.of_nat n)%Z /\ M = getR vals k.
Proof.
  induction n as [|n IH]; intros i m M H Hi Hs; cbn [max_loop] in H.
  - left. injection H as <-. reflexivity.
  - rewrite atR in H by lia. cbn [bind] in H. apply IH in H; [|lia|lia]. change (@nltb R NumR) with Rltb in H.
    destruct H as [H|(k & Hk & H)].
    + destruct (Rltb m (getR vals i)); [right; exists i; split; [lia|exact H]|left; exact H].
    + right. exists k. split; [lia|exact H].
Qed.
Lemma max_xs_attained x NB Emin Emax M : xs_ok x -> nonneg (x_vals x) -> strictly_increasing (gridv x) -> x_index x = 0%Z ->
  (1 <= NB)%nat -> (Z.of_nat NB < 2 ^ 32 - 1)%Z -> hashed (x_grid x) (gridv x) NB ->
  getR (gridv x) 0 <= Emin -> Emin <= Emax -> @max_xs_value R NumR x Emin Emax = Ok M ->
  exists E, Emin <= E <= Emax /\ @xs_eval R NumR x E = Ok M.
Proof.
  intros X NN SI Hj HN HN2 HH H0 Hmm HM. pose proof X as [G S I Z]. fold (gridv x) in *. destruct G as (Gs & Gi & Gp).
  destruct (get_lower_index_spec (gridv x) NB (x_grid x) (conj Gs (conj Gi Gp)) HN HN2 HH Emin) as (i1 & E1 & B1).
  destruct (get_lower_index_spec (gridv x) NB (x_grid x) (conj Gs (conj Gi Gp)) HN HN2 HH Emax) as (i2 & E2 & B2).
  destruct (xs_eval_spec x Emin X) as (vmin & V1 & W1). destruct (xs_eval_spec x Emax X) as (vmax & V2 & W2).
  unfold max_xs_value in HM. rewrite E1, V1, E2, V2 in HM. cbn [bind] in HM.
  assert (Hi1 : (0 <= i1 < sizeZ (gridv x))%Z) by (destruct B1 as [[? ?]|[(? & ? & ?)|(? & ? & ?)]]; lia).
  assert (Hi2 : (0 <= i2 < sizeZ (gridv x))%Z) by (destruct B2 as [[? ?]|[(? & ? & ?)|(? & ? & ?)]]; lia).
  apply max_loop_attained in HM; [|lia|lia]. destruct HM as [->|(k & Hk & ->)].
  - unfold nmax. change (@nltb R NumR) with Rltb. destruct (Rltb_spec vmin vmax); [exists Emax|exists Emin]; (split; [lra|assumption]).
  - exists (getR (gridv x) k). split.
    + split.
      * destruct B1 as [[B _]|[(B & B' & Hn)|(B & B' & Hn)]]; [|exfalso; lia|].
        { assert (getR (gridv x) 0 <= getR (gridv x) k) by (apply Gi; lia). lra. } { assert (getR (gridv x) (i1 + 1) <= getR (gridv x) k) by (apply Gi; lia). lra. }
      * assert (getR (gridv x) k <= getR (gridv x) i2) by (apply Gi; lia).
        destruct B2 as [[B Hn]|[(B & B' & Hn)|(B & B' & Hn)]]; [exfalso; lia|rewrite Hn in *; lra|lra].
    + unfold gridv in *. rewrite xs_eval_grid_point; try assumption; [rewrite Hj, Z.sub_0_r; reflexivity|lia].
Qed.

Section Dbrc.
  Variables (x : xsec R) (NB : nat) (Ein kT awr : R).
  Hypotheses (HE : 0 <= Ein) (Hk : 0 < kT) (Ha : 0 < awr).
  Hypotheses (X : xs_ok x) (SI : strictly_increasing (gridv x)) (Hj : x_index x = 0%Z)
    (HN : (1 <= NB)%nat) (HN2 : (Z.of_nat NB < 2 ^ 32 - 1)%Z) (HH : hashed (x_grid x) (gridv x) NB).
  Let lo := window_low Ein kT awr.
  Let hi := window_high Ein kT awr.
  Hypothesis (H0 : getR (gridv x) 0 <= lo).
  Variables (s : R -> R) (M : R).
  Hypothesis (Hs : forall E, xs_eval x E = Ok (s E)).
  Notation loop fuel := (@dbrc_loop R NumR fuel x Ein kT awr lo hi M (mkVec 0 0 (sqrt Ein))).
  Notation Er v := (relative_energy Ein v).

  Lemma lookup_value E : getR (gridv x) 0 <= E -> exists i, @get_lower_index R NumR (x_grid x) E = Ok i /\ @xs_eval_i R NumR x E i = Ok (s E).
  Proof.
    intros HE0. pose proof X as [G S I Z]. fold (gridv x) in *.
    destruct (get_lower_index_spec (gridv x) NB (x_grid x) G HN HN2 HH E) as (i & E1 & B1).
    exists i. split; [exact E1|]. rewrite <- Hs. apply xs_eval_i_agrees; [exact X|exact SI|exact B1|exact HE0|left; exact Hj].
  Qed.
  Lemma relative_energy_code v : let vr := vsub (mkVec 0 0 (sqrt Ein)) v in @vdot R NumR vr vr = Er v.
  Proof. unfold vdot, vsub, relative_energy, norm2, S_Kin.lin. cbn [vx vy vz]. rnum. ring. Qed.

  Lemma dbrc_step f ds : loop (S f) ds = let! (v, ds1) := svt_sample Ein kT awr ds in
     if orb (Rltb (Er v) lo) (Rltb hi (Er v)) then loop f ds1 else
     match ds1 with [] => NoDraw | r :: ds2 => if Rltb (r * M) (s (Er v)) then Ok (v, ds2) else loop f ds2 end.
  Proof.
    cbn [dbrc_loop]. unfold rbind at 1. destruct (svt_sample Ein kT awr ds) as [[v ds1]| | |]; try reflexivity. cbn [bind].
    cbv zeta. pose proof (relative_energy_code v) as Q. cbv zeta in Q. rewrite Q. change (@nltb R NumR) with Rltb.
    destruct (Rltb_spec (Er v) lo) as [L|L]; [reflexivity|]. destruct (Rltb_spec hi (Er v)) as [L'|L']; [reflexivity|]. cbn [orb].
    destruct (lookup_value (Er v)) as (i & E1 & E2); [lra|]. unfold rbind at 1, rlift at 1. rewrite E1. cbn [bind].
    unfold rbind at 1, rlift at 1. rewrite E2. cbn [bind]. unfold rbind at 1. destruct ds1 as [|r ds2]; [reflexivity|]. cbn [draw bind].
    change (@nltb R NumR) with Rltb. change (@nmul R NumR r M) with (r * M). destruct (Rltb (r * M) (s (Er v))); reflexivity.
  Qed.
  Lemma dbrc_loop_sound f : forall ds v ds', units ds -> loop f ds = Ok (v, ds') -> exists l, ds = l ++ ds' /\ dbrc_run s M Ein kT awr l v.
  Proof.
    induction f as [|f IH]; intros ds v ds' U H; [discriminate|]. rewrite dbrc_step in H.
    apply bind_ok in H as ([v1 ds1] & H1 & H). apply svt_sample_run in H1 as (l1 & -> & H1); try assumption.
    assert (U1 : units ds1) by (intros d Hd; apply U; apply in_or_app; right; exact Hd).
    destruct (orb _ _) eqn:B.
    - apply IH in H as (l & -> & H); [|exact U1]. exists (l1 ++ l). split; [apply app_assoc|]. eapply dbrc_outside; [exact H1| |exact H].
      apply Bool.orb_true_iff in B as [B|B]; apply Rltb_true in B; fold lo hi; lra.
    - apply Bool.orb_false_iff in B as [B1 B2]. apply Rltb_false in B1, B2. destruct ds1 as [|r ds2]; [discriminate|].
      destruct (Rltb_spec (r * M) (s (Er v1))) as [L|L].
      + injection H as <- <-. exists (l1 ++ [r]). split; [rewrite <- app_assoc; reflexivity|]. apply dbrc_accept; [exact H1|fold lo hi; lra|exact L].
      + apply IH in H as (l & -> & H); [|intros d Hd; apply U1; right; exact Hd]. exists (l1 ++ r :: l). split; [rewrite <- app_assoc; reflexivity|].
        eapply dbrc_reject; [exact H1|fold lo hi; lra|lra|exact H].
  Qed.
  Lemma svt_velocity_long l v : svt_velocity Ein kT awr l v -> (1 <= length l)%nat.
  Proof. intros (l0 & xi & x2 & mu & -> & _). rewrite app_length. cbn. lia. Qed.
  Lemma dbrc_loop_complete l v : dbrc_run s M Ein kT awr l v -> units l -> forall f ds', units ds' -> (length l < f)%nat -> loop f (l ++ ds') = Ok (v, ds').
  Proof.
    assert (SV : forall l v rest, units (l ++ rest) -> svt_velocity Ein kT awr l v -> svt_sample Ein kT awr (l ++ rest) = Ok (v, rest)).
    { intros l0 v0 rest U0 H. apply svt_sample_run; try assumption. exists l0. split; [reflexivity|exact H]. }
    assert (UA : forall a b, units a -> units b -> units (a ++ b)) by (intros a b A B d Hd; apply in_app_or in Hd as [?|?]; auto).
    assert (UL : forall a b, units (a ++ b) -> units a) by (intros a b A d Hd; apply A; apply in_or_app; auto).
    assert (UR : forall a b, units (a ++ b) -> units b) by (intros a b A d Hd; apply A; apply in_or_app; auto).
    induction 1 as [l v r H1 W A|l v' l' v H1 W Hr IH|l v' r l' v H1 W A Hr IH]; intros U f ds' U' F;
      (destruct f as [|f]; [lia|]); rewrite dbrc_step, <- app_assoc; cbn [app]; pose proof (svt_velocity_long _ _ H1) as HL;
      rewrite app_length in F; cbn [length] in F.
    - rewrite (SV l v) by (try exact H1; change (l ++ r :: ds') with (l ++ [r] ++ ds'); rewrite app_assoc; apply UA; assumption). cbn [bind].
      fold lo hi in W. rewrite (proj2 (Rltb_false (Er v) lo)) by lra. rewrite (proj2 (Rltb_false hi (Er v))) by lra. cbn [orb].
      rewrite (proj2 (Rltb_true _ _) A). reflexivity.
    - rewrite (SV l v') by (try exact H1; rewrite app_assoc; apply UA; assumption). cbn [bind].
      assert (B : orb (Rltb (Er v') lo) (Rltb hi (Er v')) = true).
      { apply Bool.orb_true_iff. rewrite !Rltb_true. fold lo hi in W. destruct (Rlt_dec (Er v') lo); [left; assumption|right]. lra. }
      rewrite B. apply IH; [exact (UR _ _ U)|exact U'|lia].
    - rewrite (SV l v') by (try exact H1; change (l ++ r :: l' ++ ds') with (l ++ (r :: l') ++ ds'); rewrite app_assoc; apply UA; assumption). cbn [bind].
      fold lo hi in W. rewrite (proj2 (Rltb_false (Er v') lo)) by lra. rewrite (proj2 (Rltb_false hi (Er v'))) by lra. cbn [orb].
      rewrite (proj2 (Rltb_false _ _)) by exact A. apply IH; [|exact U'|lia]. apply (UR (l ++ [r])). rewrite <- app_assoc. exact U.
  Qed.
  Lemma dbrc_loop_only f : forall ds, only_draws (loop f ds).
  Proof.
    induction f as [|f IH]; intros ds; [exact I|]. rewrite dbrc_step.
    destruct (svt_sample_total Ein kT awr ds) as [([v ds1] & ->)| ->]; [|exact I]. cbn [bind].
    destruct (orb _ _); [apply IH|]. destruct ds1 as [|r ds2]; [exact I|]. destruct (Rltb _ _); [exact I|apply IH].
  Qed.
End Dbrc.

Lemma window_order Ein kT awr : 0 <= Ein -> 0 < kT -> 0 < awr -> 0 <= window_low Ein kT awr <= Ein /\ Ein <= window_high Ein kT awr.
Proof.
  intros HE Hk Ha. unfold window_low, window_high. set (y := reduced Ein kT awr).
  assert (Hy : 0 <= y) by apply sqrt_pos.
  assert (Hak : 0 <= awr * Ein / kT) by (apply Rmult_le_pos; [apply Rmult_le_pos; lra|left; apply Rinv_0_lt_compat; lra]).
  assert (Hyy : y * y * kT / awr = Ein) by (unfold y, reduced; rewrite sqrt_sqrt by exact Hak; field; lra).
  assert (Hc : 0 < kT / awr) by (apply Rdiv_lt_0_compat; lra).
  assert (MO : forall a b, 0 <= a <= b -> a² * kT / awr <= b² * kT / awr).
  { intros a b Hab. unfold Rdiv. rewrite !Rmult_assoc. apply Rmult_le_compat_r; [unfold Rdiv in Hc; lra|]. apply Rsqr_incr_1; lra. }
  assert (Rmax 0 (y - 4) <= y) by (apply Rmax_lub; lra). pose proof (Rmax_l 0 (y - 4)).
  split; [split|].
  - unfold Rdiv. rewrite Rmult_assoc. apply Rmult_le_pos; [apply Rle_0_sqr|unfold Rdiv in Hc; lra].
  - rewrite <- Hyy. apply MO. lra.
  - rewrite <- Hyy. apply MO. lra.
Qed.
Lemma dbrc_sample_run x NB Ein kT awr s : 0 <= Ein -> 0 < kT -> 0 < awr ->
  xs_ok x -> nonneg (x_vals x) -> strictly_increasing (gridv x) -> x_index x = 0%Z ->
  (1 <= NB)%nat -> (Z.of_nat NB < 2 ^ 32 - 1)%Z -> hashed (x_grid x) (gridv x) NB ->
  getR (gridv x) 0 <= window_low Ein kT awr -> (forall E, xs_eval x E = Ok (s E)) ->
  exists M, maximum_on s (window_low Ein kT awr) (window_high Ein kT awr) M /\
    forall ds, units ds ->
      (forall v ds', @dbrc_sample R NumR x Ein kT awr ds = Ok (v, ds') <-> exists l, ds = l ++ ds' /\ dbrc_run s M Ein kT awr l v) /\
      ((exists r, @dbrc_sample R NumR x Ein kT awr ds = Ok r) \/ @dbrc_sample R NumR x Ein kT awr ds = NoDraw).
Proof.
  intros HE Hk Ha X NN SI Hj HN HN2 HH H0 Hs. destruct (window_order Ein kT awr HE Hk Ha) as [W1 W2].
  assert (W3 : window_low Ein kT awr <= window_high Ein kT awr) by lra.
  destruct (max_xs_bounds x NB (window_low Ein kT awr) (window_high Ein kT awr) X NN SI Hj HN HN2 HH H0 W3) as (M & EM & BM).
  exists M. split.
  { split.
    - destruct (max_xs_attained x NB _ _ M X NN SI Hj HN HN2 HH H0 W3 EM) as (E & HE1 & HE2). exists E. split; [exact HE1|].
      rewrite Hs in HE2. injection HE2. auto.
    - intros E HE1. destruct (BM E HE1) as (v & Ev & Lv). rewrite Hs in Ev. injection Ev as <-. exact Lv. }
  intros ds U.
  assert (Q : @dbrc_sample R NumR x Ein kT awr ds = @dbrc_loop R NumR (S (length ds)) x Ein kT awr (window_low Ein kT awr) (window_high Ein kT awr) M (mkVec 0 0 (sqrt Ein)) ds).
  { unfold dbrc_sample. cbv zeta. change (@nsqrt R NumR (ndiv (nmul awr Ein) kT)) with (reduced Ein kT awr).
    assert (Y : @nmax R NumR (nofZ 0) (nsub (reduced Ein kT awr) (nofZ 4)) = Rmax 0 (reduced Ein kT awr - 4)).
    { unfold nmax. change (@nltb R NumR) with Rltb. change (@nsub R NumR (reduced Ein kT awr) (nofZ 4)) with (reduced Ein kT awr - 4).
      change (@nofZ R NumR 0) with 0. destruct (Rltb_spec 0 (reduced Ein kT awr - 4)); unfold Rmax; destruct (Rle_dec _ _); lra. }
    rewrite Y. unfold rbind at 1, rlift at 1. change (ndiv (nmul (nmul (Rmax 0 (reduced Ein kT awr - 4)) (Rmax 0 (reduced Ein kT awr - 4))) kT) awr) with (window_low Ein kT awr).
    change (ndiv (nmul (nmul (nadd (reduced Ein kT awr) (nofZ 4)) (nadd (reduced Ein kT awr) (nofZ 4))) kT) awr) with (window_high Ein kT awr).
    rewrite EM. reflexivity. }
  rewrite Q. split; [|apply only_draws_or, dbrc_loop_only with (NB := NB) (s := s); assumption].
  intros v ds'. split.
  - intros H. eapply dbrc_loop_sound in H; eassumption.
  - intros (l & -> & H). eapply dbrc_loop_complete; try eassumption.
    + intros d Hd. apply U. apply in_or_app. left. exact Hd.
    + intros d Hd. apply U. apply in_or_app. right. exact Hd.
    + rewrite app_length. lia.
Qed.

(** every trial is accepted with probability at least 0.35 *)
Lemma accept_favourable Ein V mu r : 0 <= Ein -> 0 < V -> mu <= 0 -> r <= 7/10 -> svt_accepts Ein V mu r.
Proof.
  intros HE HV Hm Hr. unfold svt_accepts, relative_speed. set (a := sqrt Ein). assert (Ha : 0 <= a) by apply sqrt_pos.
  assert (Q : a * a = Ein) by (apply sqrt_sqrt; lra).
  apply Rle_lt_trans with (7/10 * (a + V)); [apply Rmult_le_compat_r; lra|].
  rewrite <- (sqrt_square (7/10 * (a + V))) by lra. apply sqrt_lt_1_alt. split; [apply Rle_0_sqr|]. rewrite <- Q.
  assert (0 <= a * V * (- mu)) by (apply Rmult_le_pos; [apply Rmult_le_pos|]; lra).
  pose proof (Rle_0_sqr (a - V)) as S1. unfold Rsqr in S1. nra.
Qed.
Lemma target_speed_pos kT awr x2 : 0 < kT -> 0 < awr -> 0 < x2 -> 0 < target_speed kT awr x2.
Proof. intros. unfold target_speed. apply sqrt_lt_R0. apply Rdiv_lt_0_compat; [apply Rmult_lt_0_compat; lra|lra]. Qed.
Lemma svt_returns_soon Ein kT awr l x2 mu r z rest : 0 <= Ein -> 0 < kT -> 0 < awr -> units (l ++ r :: z :: rest) ->
  svt_proposal (reduced Ein kT awr) l x2 mu -> mu <= 0 -> r <= 7/10 ->
  svt_sample Ein kT awr (l ++ r :: z :: rest) = Ok (velocity (target_speed kT awr x2) mu (2 * PI * z), rest).
Proof.
  intros HE Hk Ha U P Hm Hr. apply svt_sample_run; try assumption. exists ((l ++ [r]) ++ [z]). split; [rewrite <- !app_assoc; reflexivity|].
  exists (l ++ [r]), z, x2, mu. split; [reflexivity|]. split; [|reflexivity]. apply run_accept; [exact P|].
  apply accept_favourable; try assumption. apply target_speed_pos; try assumption. eapply proposal_pos; [|exact P].
  intros d Hd. apply U. apply in_or_app. left. exact Hd.
Qed.
