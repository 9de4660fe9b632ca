(** * The law of the target velocity with resonance rejection *)
From Coq Require Import Reals Lra Lia List Arith ZifyBool ZifyNat. From Coquelicot Require Import Coquelicot.
From Verif Require Import Base NumR M_Kin S_Kin M_Doppler S_Doppler S_ProbSvt S_Grid L_Xs L_Search L_SearchR L_Doppler L_Legendre L_Interp2 L_Spectra L_Spectra2 S_Prob L_Prob L_ProbEv L_Prob2 L_Gauss L_ProbMw L_ProbLaw L_ProbLoop L_ProbSvt L_ProbSvt2 L_ProbSvt3 L_ProbSvt4 L_ProbSvt5 L_ProbSvt6 L_ProbSvt7 L_ProbDbrc L_ProbDbrc2. Import ListNotations.
Local Open Scope R_scope.
Local Notation iR := (@is_RInt R_NormedModule).

Section Dbrc.
  Variables (x : M_Grid.xsec R) (NB : nat) (Ein kT awr : R).
  Hypotheses (HE : 0 < Ein) (Hk : 0 < kT) (Ha : 0 < awr).
  Let lo := window_low Ein kT awr.
  Let hi := window_high Ein kT awr.
  Variables (s : R -> R) (Mx : R).
  Notation Er v := (relative_energy Ein v).
  Let y := reduced Ein kT awr.
  Let b := sqrt (awr / kT).
  Let ylo := Rmax 0 (y - 4).
  Let yhi := y + 4.
  Hypothesis HMx : 0 < Mx.
  Hypothesis Bs : forall E, lo <= E <= hi -> 0 <= s E <= Mx.
  Hypothesis Cs : continuous_between s lo hi.
  Definition clampE (E : R) : R := Rmin (Rmax E lo) hi.
  Lemma lohi : 0 <= lo <= Ein /\ Ein <= hi. Proof. apply window_order; lra. Qed.
  Lemma clampE_in E : lo <= clampE E <= hi. Proof. pose proof lohi. unfold clampE, Rmin, Rmax. destruct (Rle_dec E lo), (Rle_dec _ hi); lra. Qed.
  Lemma clampE_id E : lo <= E <= hi -> clampE E = E. Proof. intros H. unfold clampE. rewrite Rmax_left by lra. apply Rmin_left. lra. Qed.
  Lemma clampE_near E E' : Rabs (clampE E' - clampE E) <= Rabs (E' - E).
  Proof. pose proof lohi. unfold clampE, Rmin, Rmax. destruct (Rle_dec E lo), (Rle_dec E' lo); repeat (destruct (Rle_dec _ hi)); unfold Rabs; repeat (destruct (Rcase_abs _)); lra. Qed.
  Definition sg (t : R) : R := s (clampE (t * t / (b * b))).
  Lemma sg_c t : continuous sg t.
  Proof.
    unfold sg. apply (c_comp (fun E => s (clampE E)) (fun t => t * t / (b * b))).
    - apply edc. auto_derive. pose proof (b_pos kT awr Hk Ha). fold b in H. nra.
    - apply continuity_pt_filterlim. intros eps He. destruct (Cs _ (clampE_in (t * t / (b * b))) eps He) as (d & Hd & H). exists d. split; [exact Hd|]. intros E' (_ & HE'). unfold dist in *. cbn in *. unfold R_dist in *. apply H; [apply clampE_in|]. eapply Rle_lt_trans; [apply clampE_near|exact HE'].
  Qed.
  Lemma sg_B t : 0 <= t -> 0 <= sg t <= Mx. Proof. intros _. apply Bs, clampE_in. Qed.
  Lemma ypos : 0 < y. Proof. apply (y_pos Ein kT awr HE Hk Ha). Qed.
  Lemma ylo_B : 0 <= ylo < y. Proof. pose proof ypos. unfold ylo. split; [apply Rmax_l|apply Rmax_lub_lt; lra]. Qed.
  Lemma yhi_B : y < yhi. Proof. unfold yhi. lra. Qed.
  Lemma bpos : 0 < b. Proof. apply (b_pos kT awr Hk Ha). Qed.
  Lemma bsq : b * b = awr / kT. Proof. apply (b_sq kT awr Hk Ha). Qed.
  Lemma lo_b : lo = ylo * ylo / (b * b). Proof. unfold lo, window_low, ylo. fold y. rewrite bsq. unfold Rsqr. field. lra. Qed.
  Lemma hi_b : hi = yhi * yhi / (b * b). Proof. unfold hi, window_high, yhi. fold y. rewrite bsq. unfold Rsqr. field. lra. Qed.
  Lemma win_energy t : 0 <= t -> (win ylo yhi t = true <-> lo <= t * t / (b * b) <= hi).
  Proof.
    intros Ht. pose proof ylo_B. pose proof yhi_B. pose proof bpos. assert (0 < b * b) by nra. rewrite win_true, lo_b, hi_b. unfold Rdiv. assert (I : 0 < / (b * b)) by (apply Rinv_0_lt_compat; lra). split.
    - intros [A B]. split; apply Rmult_le_compat_r; try lra; nra.
    - intros [A B]. apply Rmult_le_reg_r in A, B; try exact I. split; nra.
  Qed.
  Definition mkv (w mu z : R) : vec R := build kT awr (w, mu) z.
  Lemma energy_rx w m z : 0 < w -> 0 < m < 1 -> Er (mkv w (2 * m - 1) z) = rx y (sqrt w) (2 * m - 1) * rx y (sqrt w) (2 * m - 1) / (b * b).
  Proof.
    intros Hw Hm. pose proof bpos as Bp. unfold mkv, build. cbn [fst snd]. assert (Sb : sqrt w = b * target_speed kT awr w). { unfold target_speed, b. rewrite <- sqrt_mult_alt by (left; apply Rdiv_lt_0_compat; lra). f_equal. field. lra. }
    assert (T0 : 0 <= target_speed kT awr w) by apply sqrt_pos. rewrite relative_energy_velocity by lra. rewrite Sb. rewrite (rx_phys Ein kT awr HE Hk Ha). fold b. 
    set (V := target_speed kT awr w) in *. assert (Q : 0 <= Ein + V * V - 2 * sqrt Ein * V * (2 * m - 1)). { assert (S0 : sqrt Ein * sqrt Ein = Ein) by (apply sqrt_sqrt; lra). pose proof (sqrt_pos Ein). pose proof (Rle_0_sqr (sqrt Ein - V)) as S1. unfold Rsqr in S1. assert (0 <= sqrt Ein * V) by nra. nra. }
    unfold relative_speed. replace (b * sqrt (Ein + V * V - 2 * sqrt Ein * V * (2 * m - 1)) * (b * sqrt (Ein + V * V - 2 * sqrt Ein * V * (2 * m - 1)))) with (b * b * (sqrt (Ein + V * V - 2 * sqrt Ein * V * (2 * m - 1)) * sqrt (Ein + V * V - 2 * sqrt Ein * V * (2 * m - 1)))) by ring. rewrite sqrt_sqrt by exact Q. field. lra.
  Qed.
  (** ** the trial *)
  Definition d1 := dg y ylo yhi Mx sg (vec R) mkv 2 g2.
  Definition d2 := dg y ylo yhi Mx sg (vec R) mkv 3 m3.
  Definition dT : rand R (option (vec R)) := fun ds => match ds with [] => NoDraw | xi :: q => if Rlt_dec xi (cc y) then d1 q else d2 q end.
  Lemma dT_asks : asks dT. Proof. intros v r H. discriminate. Qed.
  Lemma dT_steady : steady dT.
  Proof.
    intros ds v r O H. destruct ds as [|xi q]; [discriminate|]. cbn [dT] in H. apply (open01_app [xi]) in O as O'. destruct O' as [_ O']. destruct (Rlt_dec xi (cc y)) as [C|C].
    - destruct (dg_steady _ _ _ _ _ _ _ _ _ _ _ _ O' H) as (l & -> & Hl). exists (xi :: l). split; [reflexivity|]. intros r' Or. cbn [app dT]. destruct (Rlt_dec xi (cc y)); [apply Hl; exact Or|contradiction].
    - destruct (dg_steady _ _ _ _ _ _ _ _ _ _ _ _ O' H) as (l & -> & Hl). exists (xi :: l). split; [reflexivity|]. intros r' Or. cbn [app dT]. destruct (Rlt_dec xi (cc y)); [contradiction|apply Hl; exact Or].
  Qed.
  Definition after (v : vec R) (q : list R) : res (option (vec R) * list R) :=
    if orb (Rltb (Er v) lo) (Rltb hi (Er v)) then Ok (None, q) else match q with z :: q => Ok (if Rlt_dec (z * Mx) (s (Er v)) then Some v else None, q) | [] => NoDraw end.
  Lemma dt_after w m z q : 0 < w -> 0 < m < 1 -> (if W y ylo yhi w m then match q with u :: q => Ok (if Rlt_dec (u * Mx) (sg (rx y (sqrt w) (2 * m - 1))) then Some (mkv w (2 * m - 1) z) else None, q) | [] => NoDraw end else Ok (None, q)) = after (mkv w (2 * m - 1) z) q.
  Proof.
    intros Hw Hm. unfold after. rewrite (energy_rx w m z Hw Hm). unfold W. set (t := rx y (sqrt w) (2 * m - 1)). pose proof (win_energy t (rx_pos _ _ _)) as We. unfold sg. fold t. destruct (win ylo yhi t).
    - destruct We as [We _]. specialize (We eq_refl). rewrite (proj2 (Rltb_false _ lo)) by lra. rewrite (proj2 (Rltb_false hi _)) by lra. cbn [orb]. rewrite clampE_id by exact We. reflexivity.
    - destruct (Rltb_spec (t * t / (b * b)) lo); [reflexivity|]. destruct (Rltb_spec hi (t * t / (b * b))); [reflexivity|]. exfalso. destruct We as [_ We]. specialize (We ltac:(lra)). discriminate.
  Qed.
  Lemma dT_turn ds : open01 ds -> dT ds = match svt_turn y ds with Ok (None, r) => Ok (None, r) | Ok (Some (w, mu), z :: q) => after (mkv w mu z) q | _ => NoDraw end.
  Proof.
    intros O. destruct ds as [|xi q]; [reflexivity|]. cbn [dT svt_turn]. inversion O as [|? ? Hx Oq]; subst. destruct (Rlt_dec xi (cc y)) as [C|C].
    - destruct q as [|a1 [|a2 q]]; try reflexivity. unfold d1. change (a1 :: a2 :: q) with ([a1; a2] ++ q). rewrite dg_app by reflexivity. destruct q as [|m [|r q]]; try reflexivity. cbn [dt app svt_t1]. inversion Oq as [|? ? H1 O1]; subst. inversion O1 as [|? ? H2 O2]; subst. inversion O2 as [|? ? Hm O3]; subst.
      assert (P : 0 < g2 [a1; a2]) by (apply g2_pos; split; [reflexivity|repeat constructor; lra]). unfold svt_res. destruct (Rlt_dec r (acc y idK (g2 [a1; a2]) m)) as [Q|Q]; [|reflexivity]. destruct q as [|z q]; [reflexivity|]. rewrite (dt_after _ m z q P Hm). reflexivity.
    - destruct q as [|a1 [|a2 [|a3 q]]]; try reflexivity. unfold d2. change (a1 :: a2 :: a3 :: q) with ([a1; a2; a3] ++ q). rewrite dg_app by reflexivity. destruct q as [|m [|r q]]; try reflexivity. cbn [dt app svt_t2]. inversion Oq as [|? ? H1 O1]; subst. inversion O1 as [|? ? H2 O2]; subst. inversion O2 as [|? ? H3 O3]; subst. inversion O3 as [|? ? Hm O4]; subst.
      assert (P : 0 < m3 [a1; a2; a3]) by (apply m3_pos; split; [reflexivity|repeat constructor; lra]). unfold svt_res. destruct (Rlt_dec r (acc y idK (m3 [a1; a2; a3]) m)) as [Q|Q]; [|reflexivity]. destruct q as [|z q]; [reflexivity|]. rewrite (dt_after _ m z q P Hm). reflexivity.
  Qed.
End Dbrc.
