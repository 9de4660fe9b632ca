(** * Resonance rejection: the trial of the flattened loop and its law *)
From Coq Require Import Reals Lra Lia List Arith ZifyBool ZifyNat. From Coquelicot Require Import Coquelicot.
From Verif Require Import Base NumR M_Kin S_Kin S_Doppler S_ProbSvt L_Search L_Doppler L_Legendre L_Interp2 L_Spectra L_Spectra2 S_Prob L_Prob L_ProbEv L_Prob2 L_Gauss L_ProbMw L_ProbLaw L_ProbLoop L_ProbSvt L_ProbSvt2 L_ProbSvt3 L_ProbSvt4 L_ProbSvt5 L_ProbSvt6 L_ProbSvt7. Import ListNotations.
Local Open Scope R_scope.
Local Notation iR := (@is_RInt R_NormedModule).

(** ** laws of samplers that stop after at most n numbers *)
Lemma law_levels {A} (s : rand R A) (B : A -> Prop) n p : steady s -> (forall l, unit_draws n l -> exists v r, s l = Ok (v, r)) ->
  (forall j, (j < n)%nat -> exists q, prob j (ret s B) q) -> prob n (ret s B) p -> law s B p.
Proof.
  intros St T Hj Hn. assert (F : forall m, (m <= n)%nat -> exists f : nat -> R, forall j, (j < m)%nat -> prob j (ret s B) (f j)).
  { induction m as [|m IH]; intros Hm; [exists (fun _ => 0); intros; lia|]. destruct (IH ltac:(lia)) as (f & Hf). destruct (Hj m ltac:(lia)) as (q & Hq). exists (fun j => if Nat.eq_dec j m then q else f j). intros j Hjm. destruct (Nat.eq_dec j m) as [->|N]; [exact Hq|apply Hf; lia]. }
  destruct (F n (le_n _)) as (f & Hf). exists (fun j => if Nat.ltb j n then f j else p). split.
  - intros j. destruct (Nat.ltb_spec j n) as [L|L]; [apply Hf; exact L|]. pose proof (prob_firstn n (j - n) _ _ Hn) as Q. replace (n + (j - n))%nat with j in Q by lia. eapply prob_ext; [|exact Q]. intros l Hl. cbv beta. split.
    + intros H. apply (ret_first s B l n St (ud_open _ _ Hl)) in H; [exact H|destruct Hl; lia].
    + intros (v & r & E & Hv). destruct (T (firstn n l)) as (v' & r' & E'); [eapply ud_first; [exact Hl|lia]|]. exists v', r'. split; [exact E'|]. pose proof (ud_open _ _ Hl) as O. assert (Ol : open01 (firstn n l ++ skipn n l)) by (rewrite firstn_skipn; exact O). apply open01_app in Ol as [O1 O2].
      destruct (St _ _ _ O1 E') as (u & Eu & H'). rewrite Eu in O1. apply open01_app in O1 as [_ O3]. specialize (H' (r' ++ skipn n l) ltac:(apply open01_app; tauto)). rewrite app_assoc, <- Eu, firstn_skipn in H'. rewrite H' in E. congruence.
  - apply is_lim_seq_ext_loc with (fun _ => p); [|apply is_lim_seq_const]. exists n. intros j Hj'. destruct (Nat.ltb_spec j n); [lia|reflexivity].
Qed.
Lemma prob_mean n (X : R -> list R -> Prop) (g : R -> R) v : (forall m l, {X m l} + {~ X m l}) -> (forall m, 0 < m < 1 -> prob n (X m) (g m)) -> iR g 0 1 v ->
  prob (S n) (fun l => match l with m :: r => X m r | [] => False end) v.
Proof.
  intros D P I. exists (fun l => match l with m :: r => if D m r then 1 else 0 | [] => 0 end). split.
  - intros l Hl. destruct l as [|m r]; [destruct Hl; discriminate|]. destruct (D m r); tauto.
  - exists g. split; [|exact I]. intros m Hm. destruct (P m Hm) as (f & F & E). apply (expect_ext n f); [|exact E]. intros r Hr. destruct (F r Hr) as [[a ->]|[a ->]], (D m r); try reflexivity; contradiction.
Qed.
Lemma prob_cons n (P : R -> Prop) (X : list R -> Prop) c p : 0 <= c <= 1 -> (forall x, 0 < x < c -> P x) -> (forall x, c < x < 1 -> ~ P x) -> (forall x, {P x} + {~ P x}) -> prob n X p ->
  prob (S n) (fun l => match l with x :: r => P x /\ X r | [] => False end) (c * p).
Proof.
  intros Hc H1 H0 D (f & F & E). exists (fun l => match l with x :: r => if D x then f r else 0 | [] => 0 end). split.
  - intros l Hl. destruct l as [|x r]; [destruct Hl; discriminate|]. apply ud_cons in Hl as [Hx Hr]. destruct (D x) as [Q|Q]; [|right; split; [tauto|reflexivity]]. destruct (F r Hr) as [[a b]|[a b]]; [left|right]; tauto.
  - exists (fun x => if D x then p else 0). split.
    + intros x Hx. destruct (D x); [exact E|apply expect_const].
    + eapply iR_eq; [|apply (iR_step _ c p 0 Hc)]; [ring| |]; intros x Hx; destruct (D x) as [Q|Q]; try reflexivity; exfalso; [apply Q, H1; exact Hx|exact (H0 x Hx Q)].
Qed.
Lemma iR_upto (f : R -> R) c v : 0 <= c <= 1 -> iR f 0 c v -> iR (fun m => if Rle_dec m c then f m else 0) 0 1 v.
Proof.
  intros Hc H. eapply iR_eq; [|apply (iR_chasles _ 0 c 1 v ((1 - c) * 0))]; [ring| |].
  - apply (iR_ext f); [lra| |exact H]. intros x Hx. destruct (Rle_dec x c); [reflexivity|lra].
  - apply iR_const_on; [lra|]. intros x Hx. destruct (Rle_dec x c); [lra|reflexivity].
Qed.

(** ** functions of the relative speed cut to a window *)
Section Window.
  Variables (y lo hi : R). Hypothesis Hy : 0 < y. Hypothesis Hlo : 0 <= lo < y. Hypothesis Hhi : y < hi.
  Definition win (t : R) : bool := if Rle_dec lo t then if Rle_dec t hi then true else false else false.
  Lemma win_true t : win t = true <-> lo <= t <= hi.
  Proof. unfold win. destruct (Rle_dec lo t), (Rle_dec t hi); split; intros; try discriminate; try reflexivity; lra. Qed.
  Variable K0 : R -> R. Hypothesis CK : forall t, continuous K0 t. Hypothesis BK : forall t, 0 <= t -> 0 <= K0 t <= t.
  Definition wK (t : R) : R := if win t then K0 t else 0.
  Definition Phi0 (t : R) : R := RInt (fun s => s * K0 s) 0 t.
  Lemma Phi0_derive t : is_derive Phi0 t (t * K0 t).
  Proof.
    assert (C : forall s, continuous (fun s => s * K0 s) s) by (intros s; apply (@continuous_mult R_UniformSpace R_AbsRing); [apply continuous_id|apply CK]). apply (is_derive_RInt (fun s => s * K0 s) Phi0 0 t); [|apply C]. exists posreal_one. intros z _. apply (@RInt_correct R_CompleteNormedModule), (@ex_RInt_continuous R_CompleteNormedModule). intros; apply C.
  Qed.
  Lemma wK_sub : exists Phi, sub y wK Phi.
  Proof.
    assert (S0 : sub y K0 Phi0) by (apply sub_cont; [exact Hy|intros; apply CK|intros t; apply (ex_derive_continuous (V := R_NormedModule)); eexists; apply Phi0_derive|intros; apply Phi0_derive]).
    assert (S1 := sub_cut y Hy K0 Phi0 (fun t => if Rle_dec t hi then true else false) hi ltac:(lra) S0). 
    assert (S1' : sub y (fun t => if (if Rle_dec t hi then true else false) then K0 t else 0) (fun t => Phi0 (Rmin t hi))) by (apply S1; intros t; intros; destruct (Rle_dec t hi); try reflexivity; lra). clear S1.
    assert (S2 := sub_cut y Hy _ _ (fun t => if Rlt_dec t lo then true else false) lo ltac:(lra) S1'). 
    assert (S2' : sub y (fun t => if (if Rlt_dec t lo then true else false) then (if (if Rle_dec t hi then true else false) then K0 t else 0) else 0) (fun t => Phi0 (Rmin (Rmin t lo) hi))) by (apply S2; intros t; intros; destruct (Rlt_dec t lo); try reflexivity; lra). clear S2.
    eexists. eapply sub_ext; [|apply (sub_minus y _ _ _ _ S1' S2')]. intros t Ht. unfold wK, win. cbv beta. destruct (Rle_dec lo t), (Rle_dec t hi), (Rlt_dec t lo); try (exfalso; lra); ring.
  Qed.
  Lemma wK_B t : 0 <= t -> 0 <= wK t <= t. Proof. intros Ht. unfold wK. destruct (win t); [apply BK; exact Ht|lra]. Qed.
  Lemma wK_c : continuous wK y.
  Proof.
    apply (continuous_ext_loc (T := R_UniformSpace) _ K0); [|apply CK]. assert (D : 0 < Rmin (y - lo) (hi - y)) by (apply Rmin_glb_lt; lra). exists (mkposreal _ D). intros t Ht. unfold ball in Ht. cbn in Ht. unfold AbsRing_ball, abs, minus, plus, opp in Ht. cbn in Ht. apply Rabs_lt_between in Ht. pose proof (Rmin_l (y - lo) (hi - y)). pose proof (Rmin_r (y - lo) (hi - y)). unfold wK. rewrite (proj2 (win_true t)) by lra. reflexivity.
  Qed.
  Lemma wK_far M eps : -1 <= M <= 1 -> 0 < eps -> forall w, (hi + y) * (hi + y) < w -> Rabs (mean y wK M w - 0) <= eps.
  Proof.
    intros HM He w Hw. assert (X : hi + y < sqrt w) by (rewrite <- (sqrt_square (hi + y)) by lra; apply sqrt_lt_1_alt; split; [apply Rle_0_sqr|exact Hw]).
    assert (Z : mean y wK M w = 0). { unfold mean. apply (@is_RInt_unique R_CompleteNormedModule). eapply iR_eq; [|apply (iR_const_on _ 0 ((M + 1) / 2) 0); [lra|]]; [ring|]. intros m Hm. unfold acc, wK. pose proof (rx_between y Hy (sqrt w) (2 * m - 1) ltac:(lra) ltac:(lra)) as [B _]. apply Rabs_le_between in B. destruct (win (rx y (sqrt w) (2 * m - 1))) eqn:W; [apply win_true in W; lra|]. unfold Rdiv. ring. }
    rewrite Z, Rminus_0_r, Rabs_R0. lra.
  Qed.
End Window.
