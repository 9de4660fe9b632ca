(** * Probabilities of an event that depends on a continuous variable and on further random numbers *)
From Coq Require Import Reals Lra Lia List Arith ZifyBool ZifyNat. From Coquelicot Require Import Coquelicot.
From Verif Require Import Base NumR L_Legendre L_Interp2 L_Spectra L_Spectra2 S_Prob L_Prob L_ProbEv L_Prob2 L_Gauss L_ProbMw L_ProbLaw L_ProbLoop L_ProbSvt. Import ListNotations.
Local Open Scope R_scope.
Local Notation iR := (@is_RInt R_NormedModule).

Section After.
  Variables (n k : nat) (phi : list R -> R) (f F H : R -> R) (L : R) (Sf : R -> R) (E : R -> list R -> Prop).
  Hypothesis Edec : forall w l, {E w l} + {~ E w l}.
  Hypothesis P : forall l, unit_draws n l -> 0 < phi l.
  Hypothesis law_phi : forall s, 0 <= s -> prob n (fun l => phi l <= s) (F s).
  Hypothesis law_f : forall s, 0 <= s -> iR f 0 s (F s).
  Hypothesis fpos : forall x, 0 < x -> 0 <= f x.
  Hypothesis fc : forall x, 0 <= x -> continuous f x.
  Hypothesis F1 : is_lim F p_infty 1.
  Hypothesis HE : forall w, 0 < w -> prob k (E w) (H w).
  Hypothesis hc : forall x, 0 <= x -> continuity_pt H x.
  Hypothesis hl : forall eps, 0 < eps -> forall w, Sf eps < w -> Rabs (H w - L) <= eps.
  Let le (s : R) (l : list R) : R := if Rle_dec (phi l) s then 1 else 0.
  Definition part (S0 : R) : R := RInt (fun x => H x * f x) 0 S0.
  Lemma part_int S0 : 0 <= S0 -> iR (fun x => H x * f x) 0 S0 (part S0).
  Proof.
    intros HS. apply (@RInt_correct R_CompleteNormedModule). apply (@ex_RInt_continuous R_CompleteNormedModule). intros x Hx. rewrite Rmin_left, Rmax_right in Hx by lra. apply (@continuous_mult R_UniformSpace R_AbsRing); [|apply fc; lra]. apply continuity_pt_filterlim, hc. lra.
  Qed.
  Let chi (l : list R) : R := if Edec (phi (firstn n l)) (skipn n l) then 1 else 0.
  Lemma after_inner l : unit_draws n l -> expect k (fun r => if Edec (phi l) r then 1 else 0) (H (phi l)).
  Proof.
    intros Hl. destruct (HE (phi l) (P l Hl)) as (g & G & X). apply (expect_ext k g); [|exact X]. intros r Hr. destruct (G r Hr) as [[a ->]|[a ->]], (Edec (phi l) r); try reflexivity; contradiction.
  Qed.
  Lemma split_app (l r : list R) : unit_draws n l -> firstn n (l ++ r) = l /\ skipn n (l ++ r) = r.
  Proof. intros [Ll _]. subst n. rewrite firstn_app, firstn_all, Nat.sub_diag, firstn_O, app_nil_r, skipn_app, skipn_all, Nat.sub_diag. split; reflexivity. Qed.
  Lemma after_below S0 : 0 < S0 -> prob (n + k) (fun l => phi (firstn n l) <= S0 /\ E (phi (firstn n l)) (skipn n l)) (part S0).
  Proof.
    intros HS. exists (fun l => if Rle_dec (phi (firstn n l)) S0 then chi l else 0). split.
    - intros l Hl. unfold chi. destruct (Rle_dec (phi (firstn n l)) S0), (Edec (phi (firstn n l)) (skipn n l)); tauto.
    - apply (expect_app n k) with (g := fun l => if Rle_dec (phi l) S0 then H (phi l) else 0).
      + intros l Hl. destruct (Rle_dec (phi l) S0) as [Q|Q].
        * apply (expect_ext k (fun r => if Edec (phi l) r then 1 else 0)); [|apply after_inner; exact Hl]. intros r Hr. unfold chi. destruct (split_app l r Hl) as [-> ->]. destruct (Rle_dec (phi l) S0); [reflexivity|contradiction].
        * apply (expect_ext k (fun r => 0)); [|apply expect_const]. intros r Hr. destruct (split_app l r Hl) as [-> _]. destruct (Rle_dec (phi l) S0); [contradiction|reflexivity].
      + apply (transfer n phi f H S0); try assumption.
        * intros s Hs. exists (F s). split; [apply law_phi; lra|apply law_f; lra].
        * intros x Hx. apply fpos. lra.
        * intros x Hx. apply hc. lra.
        * apply part_int. lra.
  Qed.
  Lemma F_le1 s : 0 <= s -> 0 <= F s <= 1. Proof. intros Hs. apply (prob_bounds n _ _ (law_phi s Hs)). Qed.
  Lemma after_cut S0 : 0 < S0 -> expect n (fun l => if Rle_dec (phi l) S0 then H (phi l) else L) (part S0 + L * (1 - F S0)).
  Proof.
    intros HS. assert (T : expect n (fun l => if Rle_dec (phi l) S0 then H (phi l) else 0) (part S0)).
    { apply (transfer n phi f H S0); try assumption.
      - intros s Hs. exists (F s). split; [apply law_phi; lra|apply law_f; lra].
      - intros x Hx. apply fpos. lra.
      - intros x Hx. apply hc. lra.
      - apply part_int. lra. }
    destruct (law_phi S0 ltac:(lra)) as (g & G & X). pose proof (expect_lin n _ _ 1 1 _ _ T (expect_lin n _ _ L (- L) _ _ (expect_const n 1) X)) as Q.
    eapply expect_val; [|apply (expect_ext n _ _ _) with (2 := Q)]; [ring|]. intros l Hl. cbv beta. destruct (G l Hl) as [[a ->]|[a ->]], (Rle_dec (phi l) S0); try contradiction; ring.
  Qed.
  Lemma H_bounds w : 0 < w -> 0 <= H w <= 1. Proof. intros Hw. apply (prob_bounds k _ _ (HE w Hw)). Qed.
  Lemma part_mono a b : 0 <= a -> a <= b -> 0 <= part b - part a.
  Proof.
    intros Ha Hb. assert (X : ex_RInt (fun x => H x * f x) a b). { apply (@ex_RInt_Chasles_2 R_CompleteNormedModule _ 0 a b); [lra|]. eexists. apply part_int. lra. }
    pose proof (iR_chasles _ _ _ _ _ _ (part_int a Ha) (@RInt_correct R_CompleteNormedModule _ _ _ X)) as C. pose proof (part_int b ltac:(lra)) as D. apply (@is_RInt_unique R_CompleteNormedModule) in C, D. rewrite C in D. 
    replace (part b) with (part a + RInt (fun x => H x * f x) a b) by exact D. ring_simplify. apply RInt_ge_0; [exact Hb|exact X|]. intros x Hx. apply Rmult_le_pos; [apply H_bounds; lra|apply fpos; lra].
  Qed.
  Lemma part_F a b : 0 <= a -> a <= b -> part b - part a <= F b - F a.
  Proof.
    intros Ha Hb. assert (X : forall g v, iR g 0 b v -> ex_RInt g a b). { intros g v Hg. apply (@ex_RInt_Chasles_2 R_CompleteNormedModule _ 0 a b); [lra|]. eexists. exact Hg. }
    pose proof (X _ _ (part_int b ltac:(lra))) as X1. pose proof (X _ _ (law_f b ltac:(lra))) as X2.
    assert (D1 : part b = part a + RInt (fun x => H x * f x) a b). { pose proof (iR_chasles _ _ _ _ _ _ (part_int a Ha) (@RInt_correct R_CompleteNormedModule _ _ _ X1)) as C. pose proof (part_int b ltac:(lra)) as D. apply (@is_RInt_unique R_CompleteNormedModule) in C, D. rewrite C in D. symmetry. exact D. }
    assert (D2 : F b = F a + RInt f a b). { pose proof (iR_chasles _ _ _ _ _ _ (law_f a Ha) (@RInt_correct R_CompleteNormedModule _ _ _ X2)) as C. pose proof (law_f b ltac:(lra)) as D. apply (@is_RInt_unique R_CompleteNormedModule) in C, D. rewrite C in D. symmetry. exact D. }
    rewrite D1, D2. ring_simplify. apply RInt_le; [exact Hb|exact X1|exact X2|]. intros x Hx. pose proof (H_bounds x ltac:(lra)). pose proof (fpos x ltac:(lra)). nra.
  Qed.
  Lemma after_all : exists I : R, prob (n + k) (fun l => E (phi (firstn n l)) (skipn n l)) I /\ is_lim part p_infty I.
  Proof.
    pose (Sk := fun j => Rmax (Sf (/ INR (S j))) (INR (S j))). assert (Pk : forall j, 0 < / INR (S j)) by (intros j; apply Rinv_0_lt_compat, lt_0_INR; lia).
    assert (S1 : forall j, INR (S j) <= Sk j) by (intros j; apply Rmax_r). assert (S0p : forall j, 0 < Sk j) by (intros j; apply Rlt_le_trans with (2 := S1 j), lt_0_INR; lia).
    destruct (expect_lim n (fun j l => if Rle_dec (phi l) (Sk j) then H (phi l) else L) (fun j => part (Sk j) + L * (1 - F (Sk j))) (fun l => H (phi l))) as (I & HI & X).
    - intros j. apply after_cut, S0p.
    - intros j l Hl. destruct (Rle_dec (phi l) (Sk j)) as [Q|Q]; [rewrite Rminus_eq_0, Rabs_R0; left; apply Pk|]. rewrite Rabs_minus_sym. apply (hl _ (Pk j)). apply Rle_lt_trans with (Sk j); [apply Rmax_l|lra].
    - exists I. split.
      + exists chi. split; [intros l Hl; unfold chi; destruct (Edec (phi (firstn n l)) (skipn n l)); tauto|]. apply (expect_app n k) with (g := fun l => H (phi l)); [|exact X]. intros l Hl. apply (expect_ext k (fun r => if Edec (phi l) r then 1 else 0)); [|apply after_inner; exact Hl]. intros r Hr. unfold chi. destruct (split_app l r Hl) as [-> ->]. reflexivity.
      + apply is_lim_spec. intros eps. apply is_lim_spec in F1. apply is_lim_seq_spec in HI. pose proof (cond_pos eps) as Pe. set (c := Rabs L + 2). assert (Pc : 2 <= c) by (unfold c; pose proof (Rabs_pos L); lra). assert (P2 : 0 < eps / (2 * c)) by (apply Rdiv_lt_0_compat; lra). assert (P3 : 0 < eps / 4) by lra.
        destruct (F1 (mkposreal _ P2)) as (A & HA). destruct (HI (mkposreal _ P3)) as (N1 & HN). cbn [pos] in HA, HN.
        pose (j := (N1 + Z.to_nat (up (Rmax A 0)))%nat). assert (Aj : A < Sk j). { apply Rlt_le_trans with (2 := S1 j). pose proof (archimed (Rmax A 0)) as [U _]. pose proof (Rmax_l A 0). pose proof (Rmax_r A 0). assert (0 < IZR (up (Rmax A 0))) as U0 by lra. apply lt_IZR in U0. unfold j. rewrite S_INR, plus_INR, (INR_IZR_INZ (Z.to_nat _)), Z2Nat.id by lia. pose proof (pos_INR N1). lra. }
        exists (Sk j). intros x Hx. specialize (HN j ltac:(unfold j; lia)). pose proof (HA (Sk j) Aj) as HF. pose proof (part_F (Sk j) x ltac:(specialize (S0p j); lra) ltac:(lra)) as PF. pose proof (part_mono (Sk j) x ltac:(specialize (S0p j); lra) ltac:(lra)) as PM. pose proof (F_le1 x ltac:(specialize (S0p j); lra)) as B1. pose proof (F_le1 (Sk j) ltac:(specialize (S0p j); lra)) as B2.
        assert (T : 1 - F (Sk j) < eps / (2 * c)) by (apply Rabs_lt_between in HF; lra). assert (T2 : (1 - F (Sk j)) * c < eps / 2). { replace (eps / 2) with (eps / (2 * c) * c) by (field; lra). apply Rmult_lt_compat_r; lra. }
        assert (T3 : Rabs (L * (1 - F (Sk j))) <= Rabs L * (1 - F (Sk j))) by (rewrite Rabs_mult, (Rabs_pos_eq (1 - F (Sk j))) by lra; lra). unfold c in T2. assert (T4 : Rabs (part x - part (Sk j)) <= 1 - F (Sk j)) by (rewrite Rabs_pos_eq; lra).
        replace (part x - I) with ((part x - part (Sk j)) + ((part (Sk j) + L * (1 - F (Sk j)) - I) - L * (1 - F (Sk j)))) by ring. eapply Rle_lt_trans; [apply Rabs_triang|]. eapply Rle_lt_trans; [apply Rplus_le_compat_l; apply Rabs_triang|]. rewrite Rabs_Ropp. lra.
  Qed.
End After.
