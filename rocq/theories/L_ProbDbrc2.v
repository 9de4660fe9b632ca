(** * The trial of the flattened resonance rejection loop: proposal, free-gas acceptance, azimuth, window, cross section *)
From Coq Require Import Reals Lra Lia List Arith ZifyBool ZifyNat. From Coquelicot Require Import Coquelicot.
From Verif Require Import Base NumR M_Kin S_Kin S_Doppler S_ProbSvt L_Search L_Doppler L_Legendre L_Interp2 L_Spectra L_Spectra2 S_Prob L_Prob L_ProbEv L_Prob2 L_Gauss L_ProbMw L_ProbLaw L_ProbLoop L_ProbSvt L_ProbSvt2 L_ProbSvt3 L_ProbSvt4 L_ProbSvt5 L_ProbSvt6 L_ProbSvt7 L_ProbDbrc. Import ListNotations.
Local Open Scope R_scope.
Local Notation iR := (@is_RInt R_NormedModule).

Lemma app_split n (l r : list R) : unit_draws n l -> firstn n (l ++ r) = l /\ skipn n (l ++ r) = r.
Proof. intros [Ll _]. subst n. rewrite firstn_app, firstn_all, Nat.sub_diag, firstn_O, app_nil_r, skipn_app, skipn_all, Nat.sub_diag. split; reflexivity. Qed.
Section Trial.
  Variables (y lo hi Mx : R) (sg : R -> R). (* sg: the cross section as a function of the reduced relative speed *)
  Hypothesis Hy : 0 < y. Hypothesis Hlo : 0 <= lo < y. Hypothesis Hhi : y < hi. Hypothesis HMx : 0 < Mx.
  Hypothesis Csg : forall t, continuous sg t.
  Hypothesis Bsg : forall t, 0 <= t -> 0 <= sg t <= Mx.
  Variable Val : Type.
  Variable mk : R -> R -> R -> Val. (* the value made of the reduced speed squared, the cosine and the azimuth number *)
  Definition sK (t : R) : R := t * (sg t / Mx).
  Lemma sK_c t : continuous sK t.
  Proof. apply (@continuous_mult R_UniformSpace R_AbsRing); [apply continuous_id|]. apply (@continuous_mult R_UniformSpace R_AbsRing); [apply Csg|apply continuous_const]. Qed.
  Lemma sg_ratio t : 0 <= t -> 0 <= sg t / Mx <= 1. Proof. intros Ht. pose proof (Bsg t Ht). split; [apply Rle_div_r; lra|apply Rle_div_l; lra]. Qed.
  Lemma sK_B t : 0 <= t -> 0 <= sK t <= t. Proof. intros Ht. pose proof (sg_ratio t Ht). unfold sK. nra. Qed.
  Definition K3 := wK lo hi idK.
  Definition K4 := wK lo hi sK.
  Definition W (w m : R) : bool := win lo hi (rx y (sqrt w) (2 * m - 1)).
  Definition ok (w m z : R) : Prop := z * Mx < sg (rx y (sqrt w) (2 * m - 1)).
  Lemma acc3 w m : acc y K3 w m = if W w m then acc y idK w m else 0.
  Proof. unfold acc, K3, wK, W. destruct (win lo hi _); [reflexivity|]. unfold Rdiv. ring. Qed.
  Lemma acc4 w m : acc y K4 w m = if W w m then acc y idK w m * (sg (rx y (sqrt w) (2 * m - 1)) / Mx) else 0.
  Proof. unfold acc, K4, wK, W, sK, idK. destruct (win lo hi _); [|unfold Rdiv; ring]. pose proof (sqrt_pos w). field. split; lra. Qed.

  (** ** the numbers after the proposal *)
  Definition dt (w : R) : rand R (option Val) := fun ds =>
    match ds with
    | m :: r :: q => if Rlt_dec r (acc y idK w m) then
        match q with
        | x :: q => if W w m then match q with z :: q => Ok (if Rlt_dec (z * Mx) (sg (rx y (sqrt w) (2 * m - 1))) then Some (mk w (2 * m - 1) x) else None, q) | [] => NoDraw end else Ok (None, q)
        | [] => NoDraw
        end else Ok (None, q)
    | _ => NoDraw
    end.
  Lemma dt_steady w : steady (dt w).
  Proof using Type.
    intros ds v r O H. destruct ds as [|m [|a q]]; try discriminate. cbn [dt] in H. destruct (Rlt_dec a (acc y idK w m)) as [C|C].
    - destruct q as [|x q]; [discriminate|]. destruct (W w m) eqn:Q.
      + destruct q as [|z q]; [discriminate|]. exists [m; a; x; z]. injection H as <- <-. split; [reflexivity|]. intros r' _. cbn [app dt]. destruct (Rlt_dec a (acc y idK w m)); [|contradiction]. rewrite Q. reflexivity.
      + injection H as <- <-. exists [m; a; x]. split; [reflexivity|]. intros r' _. cbn [app dt]. destruct (Rlt_dec a (acc y idK w m)); [|contradiction]. rewrite Q. reflexivity.
    - injection H as <- <-. exists [m; a]. split; [reflexivity|]. intros r' _. cbn [app dt]. destruct (Rlt_dec a (acc y idK w m)); [contradiction|reflexivity].
  Qed.
  Lemma dt_total w l : length l = 4%nat -> exists v r, dt w l = Ok (v, r).
  Proof using Type. intros L. destruct l as [|m [|a [|x [|z [|]]]]]; try discriminate. cbn [dt]. destruct (Rlt_dec a (acc y idK w m)); [|eexists _, _; reflexivity]. destruct (W w m); eexists _, _; reflexivity. Qed.

  (** the events of three and of four numbers *)
  Definition ev3 (w : R) (l : list R) : Prop := match l with [m; r; x] => r < acc y idK w m /\ W w m = true | _ => False end.
  Definition ev4 (M t : R) (w : R) (l : list R) : Prop := match l with [m; r; x; z] => m <= (M + 1) / 2 /\ r < acc y idK w m /\ x <= t /\ W w m = true /\ ok w m z | _ => False end.
  Lemma ev3_dec w l : {ev3 w l} + {~ ev3 w l}.
  Proof. destruct l as [|m [|r [|x [|]]]]; cbn; auto. destruct (Rlt_dec r (acc y idK w m)), (W w m); auto; right; intros [A B]; try discriminate; contradiction. Qed.
  Lemma ev4_dec M t w l : {ev4 M t w l} + {~ ev4 M t w l}.
  Proof. destruct l as [|m [|r [|x [|z [|]]]]]; cbn; auto. unfold ok. destruct (Rle_dec m ((M + 1) / 2)), (Rlt_dec r (acc y idK w m)), (Rle_dec x t), (W w m), (Rlt_dec (z * Mx) (sg (rx y (sqrt w) (2 * m - 1)))); first [left; tauto|right; intros (A & B & C & D & E); (discriminate || contradiction)]. Qed.
  Lemma acc_id_B w m : 0 < m < 1 -> 0 <= acc y idK w m <= 1. Proof. apply (acc_bounds y Hy idK id_B). Qed.
  Lemma ev3_prob w : 0 < w -> prob 3 (ev3 w) (mean y K3 1 w).
  Proof.
    intros Hw. destruct (wK_sub y lo hi Hy Hlo Hhi idK ltac:(intros; apply continuous_id)) as (Phi & SK). assert (H1 : -1 <= 1 <= 1) by lra. pose proof (acc_mean y Hy K3 Phi 1 SK H1 w) as I. replace ((1 + 1) / 2) with 1 in I by lra.
    eapply prob_ext; [|apply (prob_mean 2 (fun m l => match l with [r; x] => r < acc y idK w m /\ W w m = true | _ => False end) (acc y K3 w)); [| |exact I]].
    - intros l [L _]. destruct l as [|m [|r [|x [|]]]]; try discriminate. cbn. tauto.
    - intros m l. destruct l as [|r [|x [|]]]; auto. destruct (Rlt_dec r (acc y idK w m)), (W w m); auto; right; intros [A B]; try discriminate; contradiction.
    - intros m Hm. rewrite acc3. pose proof (acc_id_B w m Hm) as B. destruct (W w m) eqn:Q.
      + pose proof (prob_cons 1 (fun r => r < acc y idK w m) (fun _ => True) (acc y idK w m) 1 B ltac:(intros; lra) ltac:(intros; lra) (fun r => Rlt_dec r _) (prob_always 1 _ (fun _ _ => Logic.I))) as P. rewrite Rmult_1_r in P. eapply prob_ext; [|exact P]. intros l [L _]. destruct l as [|r [|x [|]]]; try discriminate. tauto.
      + apply prob_never. intros l [L _] H. destruct l as [|r [|x [|]]]; try discriminate. destruct H; discriminate.
  Qed.
  Lemma ev4_prob M t w : -1 <= M <= 1 -> 0 <= t <= 1 -> 0 < w -> prob 4 (ev4 M t w) (t * mean y K4 M w).
  Proof.
    intros HM Ht Hw. destruct (wK_sub y lo hi Hy Hlo Hhi sK sK_c) as (Phi & SK). pose proof (acc_mean y Hy K4 Phi M SK HM w) as I. apply (@is_RInt_scal R_NormedModule _ _ _ t) in I. change (scal t (mean y K4 M w)) with (t * mean y K4 M w) in I. apply (iR_upto (fun m => scal t (acc y K4 w m))) in I; [|lra].
    eapply prob_ext; [|apply (prob_mean 3 (fun m l => match l with [r; x; z] => m <= (M + 1) / 2 /\ r < acc y idK w m /\ x <= t /\ W w m = true /\ ok w m z | _ => False end) (fun m => if Rle_dec m ((M + 1) / 2) then scal t (acc y K4 w m) else 0) (t * mean y K4 M w)); [| |exact I]].
    - intros l [L _]. destruct l as [|m [|r [|x [|z [|]]]]]; try discriminate. cbn. tauto.
    - intros m l. destruct l as [|r [|x [|z [|]]]]; auto. unfold ok. destruct (Rle_dec m ((M + 1) / 2)), (Rlt_dec r (acc y idK w m)), (Rle_dec x t), (W w m), (Rlt_dec (z * Mx) (sg (rx y (sqrt w) (2 * m - 1)))); first [left; tauto|right; intros (A & B & C & D & E); (discriminate || contradiction)].
    - intros m Hm. cbv beta. pose proof (acc_id_B w m Hm) as B. destruct (Rle_dec m ((M + 1) / 2)) as [Lm|Lm].
      2:{ apply prob_never. intros l [L _] H. destruct l as [|r [|x [|z [|]]]]; try discriminate. lra. }
      change (scal t (acc y K4 w m)) with (t * acc y K4 w m). rewrite acc4. destruct (W w m) eqn:Q.
      2:{ rewrite Rmult_0_r. apply prob_never. intros l [L _] H. destruct l as [|r [|x [|z [|]]]]; try discriminate. destruct H as (_ & _ & _ & H & _). discriminate. }
      pose proof (sg_ratio (rx y (sqrt w) (2 * m - 1)) (rx_pos _ _ _)) as B2.
      assert (Z : forall z, z * Mx < sg (rx y (sqrt w) (2 * m - 1)) <-> z < sg (rx y (sqrt w) (2 * m - 1)) / Mx) by (intros z; split; intros; [apply (Rlt_div_r z (sg (rx y (sqrt w) (2 * m - 1))) Mx); lra|apply (Rlt_div_r z (sg (rx y (sqrt w) (2 * m - 1))) Mx); lra]).
      pose proof (prob_cons 0 (fun z => z * Mx < sg (rx y (sqrt w) (2 * m - 1))) (fun _ => True) _ 1 B2 ltac:(intros z Hz; apply Z; lra) ltac:(intros z Hz X; apply Z in X; lra) (fun z => Rlt_dec _ _) (prob_always 0 _ (fun _ _ => Logic.I))) as P1.
      pose proof (prob_cons 1 (fun x => x <= t) _ t _ Ht ltac:(intros; lra) ltac:(intros; lra) (fun x => Rle_dec _ _) P1) as P2. pose proof (prob_cons 2 (fun r => r < acc y idK w m) _ _ _ B ltac:(intros; lra) ltac:(intros; lra) (fun r => Rlt_dec _ _) P2) as P3.
      eapply prob_val; [|eapply prob_ext; [|exact P3]]; [ring|]. intros l [L _]. destruct l as [|r [|x [|z [|]]]]; try discriminate. cbv beta iota. unfold ok. tauto.
  Qed.

  Lemma mean4_c M : -1 <= M <= 1 -> forall x, 0 <= x -> continuity_pt (mean y K4 M) x.
  Proof. intros HM x Hx. destruct (wK_sub y lo hi Hy Hlo Hhi sK sK_c) as (Phi & SK). apply (mean_cont y Hy K4 Phi M SK (wK_B lo hi sK sK_B) (wK_c y lo hi Hlo Hhi sK sK_c) HM x Hx). Qed.
  Lemma mean3_c x : 0 <= x -> continuity_pt (mean y K3 1) x.
  Proof. intros Hx. assert (H1 : -1 <= 1 <= 1) by lra. destruct (wK_sub y lo hi Hy Hlo Hhi idK ltac:(intros; apply continuous_id)) as (Phi & SK). apply (mean_cont y Hy K3 Phi 1 SK (wK_B lo hi idK id_B) (wK_c y lo hi Hlo Hhi idK ltac:(intros; apply continuous_id)) H1 x Hx). Qed.
  Lemma scaled_c t (H : R -> R) x : continuity_pt H x -> continuity_pt (fun w => t * H w) x.
  Proof. intros C. apply (continuity_pt_scal H t x C). Qed.
  (** ** the trial for one of the two proposals *)
  Section Gen.
    Variables (n : nat) (phi : list R -> R) (f F : R -> R).
    Hypothesis P : forall l, unit_draws n l -> 0 < phi l.
    Hypothesis law_phi : forall s, 0 <= s -> prob n (fun l => phi l <= s) (F s).
    Hypothesis law_f : forall s, 0 <= s -> iR f 0 s (F s).
    Hypothesis fpos : forall x, 0 < x -> 0 <= f x.
    Hypothesis fc : forall x, 0 <= x -> continuous f x.
    Hypothesis F1 : is_lim F p_infty 1.
    Definition dg : rand R (option Val) := fun ds => if (length ds <? n)%nat then NoDraw else dt (phi (firstn n ds)) (skipn n ds).
    Lemma dg_app l r : length l = n -> dg (l ++ r) = dt (phi l) r.
    Proof using Type. intros L. unfold dg. rewrite app_length. destruct (Nat.ltb_spec (length l + length r) n) as [X|X]; [exfalso; clear - L X; lia|]. rewrite <- L. rewrite firstn_app, firstn_all, Nat.sub_diag, firstn_O, app_nil_r, skipn_app, skipn_all, Nat.sub_diag. reflexivity. Qed.
    Lemma dg_ok ds v r : dg ds = Ok (v, r) -> exists l q, ds = l ++ q /\ length l = n /\ dt (phi l) q = Ok (v, r).
    Proof using Type. intros H. unfold dg in H. destruct (Nat.ltb_spec (length ds) n) as [|L]; [discriminate|]. exists (firstn n ds), (skipn n ds). split; [symmetry; apply firstn_skipn|]. split; [apply firstn_length_le; exact L|exact H]. Qed.
    Lemma dg_steady : steady dg.
    Proof using Type.
      intros ds v r O H. apply dg_ok in H as (l & q & -> & L & H). apply open01_app in O as [O1 O2]. destruct (dt_steady _ _ _ _ O2 H) as (u & -> & Hu). exists (l ++ u). split; [apply app_assoc|]. intros r' O'. rewrite <- app_assoc, dg_app by exact L. apply Hu. exact O'.
    Qed.
    Lemma dg_total l : unit_draws (n + 4) l -> exists v r, dg l = Ok (v, r).
    Proof using Type. intros Hl. destruct (ud_split n 4 l Hl) as (a & b & -> & [La _] & [Lb _]). rewrite dg_app by exact La. apply dt_total. exact Lb. Qed.
    Lemma dg_short B l : (length l < n + 2)%nat -> ~ ret dg B l.
    Proof. intros L (v & r & H & _). apply dg_ok in H as (a & q & -> & La & H). rewrite app_length in L. destruct q as [|m [|z q]]; try discriminate. cbn in L. lia. Qed.
    Section Hit.
      Variables (S0 M t : R) (B : Val -> Prop). Hypothesis HS : 0 < S0. Hypothesis HM : -1 <= M <= 1. Hypothesis Ht : 0 <= t <= 1.
      Hypothesis HB : forall w mu x, 0 < w -> -1 < mu < 1 -> 0 < x < 1 -> (B (mk w mu x) <-> w <= S0 /\ mu <= M /\ x <= t).
      Lemma dg_hit : law dg (fun o => exists v, o = Some v /\ B v) (part f (fun w => t * mean y K4 M w) S0).
      Proof.
        apply (law_levels dg _ (n + 4) _ dg_steady dg_total).
        - intros j Hj. exists 0. apply prob_never. intros l [L _] (v & r & H & w & -> & _). apply dg_ok in H as (a & q & -> & La & H). rewrite app_length in L. destruct q as [|m [|z [|x [|u q]]]]; try discriminate; cbn [dt] in H; cbn [length] in L; try lia; destruct (Rlt_dec z _); try discriminate; destruct (W _ _); discriminate.
        - eapply prob_ext; [|apply (after_below n 4 phi f F (fun w => t * mean y K4 M w) 0 (ev4 M t) (ev4_dec M t) P law_phi law_f fpos fc (fun w Hw => ev4_prob M t w HM Ht Hw) (fun x Hx => scaled_c t _ x (mean4_c M HM x Hx)) S0 HS)].
          intros l Hl. destruct (ud_split n 4 l Hl) as (a & b & -> & Ha & Hb). destruct (app_split n a b Ha) as [-> ->]. destruct Ha as [La Fa]. pose proof (P a (conj La Fa)) as Pa. unfold ret. rewrite dg_app by exact La. destruct Hb as [Lb Fb]. destruct b as [|m [|r [|x [|z [|]]]]]; try discriminate.
          assert (Hm : 0 < m < 1) by (inversion Fb; assumption). assert (Hx : 0 < x < 1). { inversion Fb as [|? ? _ G1]; subst. inversion G1 as [|? ? _ G2]; subst. inversion G2; assumption. } pose proof (HB (phi a) (2 * m - 1) x Pa ltac:(lra) Hx) as HBx.
          cbn [ev4 dt]. unfold ok. destruct (Rlt_dec r (acc y idK (phi a) m)) as [Q|Q].
          + destruct (W (phi a) m) eqn:Ew.
            * destruct (Rlt_dec (z * Mx) (sg (rx y (sqrt (phi a)) (2 * m - 1)))) as [Q2|Q2]; split.
              -- intros (H1 & H2 & _ & H3 & _). eexists _, _. split; [reflexivity|]. eexists. split; [reflexivity|]. apply HBx. lra.
              -- intros (v & q & E & u & Eu & Hu). assert (u = mk (phi a) (2 * m - 1) x) as -> by congruence. apply HBx in Hu. repeat split; try tauto. lra.
              -- intros (_ & _ & _ & _ & _ & H). contradiction.
              -- intros (v & q & E & u & Eu & Hu). congruence.
            * split; [intros (_ & _ & _ & _ & H & _); discriminate|intros (v & q & E & u & Eu & Hu); congruence].
          + split; [intros (_ & _ & H & _); contradiction|intros (v & q & E & u & Eu & Hu); congruence].
      Qed.
    End Hit.
    Lemma dg_miss : exists a : R, is_lim (part f (fun w => 1 * mean y K4 1 w)) p_infty a /\ law dg (fun o => o = None) (1 - a) /\ law dg (fun o => exists v, o = Some v /\ True) a.
    Proof.
      assert (H1 : -1 <= 1 <= 1) by lra. assert (T1 : 0 <= 1 <= 1) by lra.
      destruct (after_all n 2 phi f F (mean y idK 1) ((1 + 1) / 2) (fun e => (2 * y / e) * (2 * y / e)) (ev y 1) (ev_dec y 1) P law_phi law_f fpos fc F1 (fun w Hw => L_ProbSvt5.ev_prob y Hy 1 w H1 Hw) (mean_c y Hy 1 H1) (fun e He => id_far y Hy 1 e H1 He)) as (a2 & P2 & _).
      destruct (after_all n 3 phi f F (mean y K3 1) 0 (fun e => (hi + y) * (hi + y)) ev3 ev3_dec P law_phi law_f fpos fc F1 ev3_prob mean3_c (fun e He => wK_far y lo hi Hy Hhi idK 1 e H1 He)) as (a3 & P3 & _).
      assert (far : forall e, 0 < e -> forall w, (hi + y) * (hi + y) < w -> Rabs (1 * mean y K4 1 w - 0) <= e) by (intros e He w Hw; rewrite Rmult_1_l; apply (wK_far y lo hi Hy Hhi sK 1 e H1 He w Hw)).
      destruct (after_all n 4 phi f F (fun w => 1 * mean y K4 1 w) 0 (fun e => (hi + y) * (hi + y)) (ev4 1 1) (ev4_dec 1 1) P law_phi law_f fpos fc F1 (fun w Hw => ev4_prob 1 1 w H1 T1 Hw) (fun x Hx => scaled_c 1 _ x (mean4_c 1 H1 x Hx)) far) as (a & P4 & L4).
      exists a. split; [exact L4|]. split.
      - apply (law_levels dg _ (n + 4) _ dg_steady dg_total).
        + intros j Hj. destruct (Nat.lt_ge_cases j (n + 2)) as [J|J]; [exists 0; apply prob_never; intros l [L _]; apply dg_short; lia|]. assert (j = n + 2 \/ j = n + 3)%nat as [-> | ->] by lia.
          * exists (1 - a2). eapply prob_ext; [|apply prob_not; exact P2]. intros l Hl. cbv beta. destruct (ud_split n 2 l Hl) as (u & b & -> & Hu & Hb). destruct (app_split n u b Hu) as [-> ->]. destruct Hu as [Lu _]. unfold ret. rewrite dg_app by exact Lu. destruct Hb as [Lb Fb]. destruct b as [|m [|r [|]]]; try discriminate. assert (Hm : 0 < m < 1) by (inversion Fb; assumption).
            cbn [ev dt]. destruct (Rlt_dec r (acc y idK (phi u) m)) as [Q|Q]; split; intros H.
            -- exfalso. apply H. split; [exact Q|lra].
            -- destruct H as (v & q & E & _). discriminate.
            -- eexists _, _. split; reflexivity.
            -- intros [H' _]. contradiction.
          * exists (1 - a3). eapply prob_ext; [|apply prob_not; exact P3]. intros l Hl. cbv beta. destruct (ud_split n 3 l Hl) as (u & b & -> & Hu & Hb). destruct (app_split n u b Hu) as [-> ->]. destruct Hu as [Lu _]. unfold ret. rewrite dg_app by exact Lu. destruct Hb as [Lb Fb]. destruct b as [|m [|r [|x [|]]]]; try discriminate.
            cbn [ev3 dt]. destruct (Rlt_dec r (acc y idK (phi u) m)) as [Q|Q].
            -- destruct (W (phi u) m) eqn:Ew; split; intros H; try (destruct H; split; [exact Q|reflexivity]).
               ++ destruct H as (v & q & E & _). discriminate.
               ++ eexists _, _. split; reflexivity.
               ++ intros [_ H']. discriminate.
            -- split; intros H; [eexists _, _; split; reflexivity|intros [H' _]; contradiction].
        + eapply prob_ext; [|apply prob_not; exact P4]. intros l Hl. cbv beta. destruct (ud_split n 4 l Hl) as (u & b & -> & Hu & Hb). destruct (app_split n u b Hu) as [-> ->]. destruct Hu as [Lu _]. unfold ret. rewrite dg_app by exact Lu. destruct Hb as [Lb Fb]. destruct b as [|m [|r [|x [|z [|]]]]]; try discriminate.
          assert (Hm : 0 < m < 1) by (inversion Fb; assumption). assert (Hx : 0 < x < 1). { inversion Fb as [|? ? _ G1]; subst. inversion G1 as [|? ? _ G2]; subst. inversion G2; assumption. } 
          cbn [ev4 dt]. unfold ok. destruct (Rlt_dec r (acc y idK (phi u) m)) as [Q|Q].
          * destruct (W (phi u) m) eqn:Ew.
            -- destruct (Rlt_dec (z * Mx) (sg (rx y (sqrt (phi u)) (2 * m - 1)))) as [Q2|Q2]; split; intros H.
               ++ exfalso. apply H. repeat split; try assumption; lra.
               ++ destruct H as (v & q & E & ->). congruence.
               ++ eexists _, _. split; reflexivity.
               ++ intros (_ & _ & _ & _ & H'). contradiction.
            -- split; intros H; [eexists _, _; split; reflexivity|intros (_ & _ & _ & H' & _); discriminate].
          * split; intros H; [eexists _, _; split; reflexivity|intros (_ & H' & _); contradiction].
      - apply (law_levels dg _ (n + 4) _ dg_steady dg_total).
        + intros j Hj. exists 0. apply prob_never. intros l [L _] (v & r & H & w & -> & _). apply dg_ok in H as (u & q & -> & La & H). rewrite app_length in L. destruct q as [|m [|z [|x [|k q]]]]; try discriminate; cbn [dt] in H; cbn [length] in L; try lia; destruct (Rlt_dec z _); try discriminate; destruct (W _ _); discriminate.
        + eapply prob_ext; [|exact P4]. intros l Hl. cbv beta. destruct (ud_split n 4 l Hl) as (u & b & -> & Hu & Hb). destruct (app_split n u b Hu) as [-> ->]. destruct Hu as [Lu _]. unfold ret. rewrite dg_app by exact Lu. destruct Hb as [Lb Fb]. destruct b as [|m [|r [|x [|z [|]]]]]; try discriminate.
          assert (Hm : 0 < m < 1) by (inversion Fb; assumption). assert (Hx : 0 < x < 1). { inversion Fb as [|? ? _ G1]; subst. inversion G1 as [|? ? _ G2]; subst. inversion G2; assumption. } 
          cbn [ev4 dt]. unfold ok. destruct (Rlt_dec r (acc y idK (phi u) m)) as [Q|Q].
          * destruct (W (phi u) m) eqn:Ew.
            -- destruct (Rlt_dec (z * Mx) (sg (rx y (sqrt (phi u)) (2 * m - 1)))) as [Q2|Q2]; split; intros H.
               ++ eexists _, _. split; [reflexivity|]. eexists. split; [reflexivity|trivial].
               ++ repeat split; try assumption; lra.
               ++ destruct H as (_ & _ & _ & _ & H). contradiction.
               ++ destruct H as (v & q & E & k & Ek & _). congruence.
            -- split; intros H; [destruct H as (_ & _ & _ & H & _); discriminate|destruct H as (v & q & E & k & Ek & _); congruence].
          * split; intros H; [destruct H as (_ & H & _); contradiction|destruct H as (v & q & E & k & Ek & _); congruence].
    Qed.
  End Gen.
End Trial.
