(** * Samplers that draw an energy by inversion and then a cosine that depends on it *)
From Coq Require Import Reals Lra Lia List Arith ZifyBool ZifyNat. From Coquelicot Require Import Coquelicot.
From Verif Require Import Base NumR L_Search L_SearchR S_Prob L_Prob L_ProbEv L_ProbLaw L_ProbDbrc. Import ListNotations.
Local Open Scope R_scope.
Local Notation iR := (@is_RInt R_NormedModule).

(** ** one draw, then a fixed number of further draws *)
Lemma uses_prob {A} (s : rand R A) n phi (B : A -> Prop) q : uses s n phi -> law s B q -> prob n (fun l => B (phi l)) q.
Proof.
  intros U L. assert (P : exists p, prob n (fun l => B (phi l)) p).
  { destruct L as (p & P & _). exists (p n). eapply prob_ext; [|apply (P n)]. intros l Hl. destruct U as [U _]. specialize (U l [] Hl (Forall_nil _)). rewrite app_nil_r in U. split; [intros (v & r & E & Bv); rewrite U in E; injection E as <- _; exact Bv|intros H; eauto]. }
  destruct P as (p & P). pose proof (law_uses s n phi B p U P) as L'. rewrite (law_unique s B q p L L'). exact P.
Qed.
Lemma law_step {A} (s : rand R A) n (phi : R -> list R -> A) (B : A -> Prop) (q : R -> R) J : (forall v, {B v} + {~ B v}) -> (forall l v r, (length l < S n)%nat -> s l <> Ok (v, r)) ->
  (forall x l r, 0 < x < 1 -> unit_draws n l -> open01 r -> s (x :: l ++ r) = Ok (phi x l, r)) -> (forall x, 0 < x < 1 -> prob n (fun l => B (phi x l)) (q x)) -> iR q 0 1 J -> law s B J.
Proof.
  intros D Sh Hs Hq HI. apply (law_uses s (S n) (fun l => match l with x :: l' => phi x l' | [] => phi 0 [] end)).
  - split; [|intros l Hl v r; apply Sh; exact Hl]. intros l r [Hl Fl] Hr. destruct l as [|x l]; [discriminate|]. inversion Fl; subst. cbn [app]. apply Hs; [assumption|split; [cbn in Hl; lia|assumption]|exact Hr].
  - eapply prob_ext; [|apply (prob_mean n (fun x l => B (phi x l)) q J (fun m l => D (phi m l)) Hq HI)]. intros l Hl. destruct l as [|x l]; [destruct Hl; discriminate|]. tauto.
Qed.

(** ** change of variables: x = cumulative function of the energy *)
Section Move.
Variables (f : R -> R) (a b : R) (phi : R -> R).
Hypothesis Fp : forall x, a < x < b -> 0 <= f x.
Hypothesis I1 : iR f a b 1.
Hypothesis Hp : forall x, 0 < x < 1 -> a <= phi x <= b /\ iR f a (phi x) x.
Definition cum (e : R) : R := RInt f a e.
Lemma cum_sub u w : a <= u -> u <= w -> w <= b -> exists q, 0 <= q /\ iR f u w q.
Proof.
  intros H1 H2 H3. assert (X : ex_RInt f u w). { apply (@ex_RInt_Chasles_1 R_CompleteNormedModule f u w b); [lra|]. apply (@ex_RInt_Chasles_2 R_CompleteNormedModule f a u b); [lra|]. exists 1. exact I1. } destruct X as (q & X). exists q. split; [|exact X].
  pose proof (iR_const_on (fun _ => 0) u w 0 H2 ltac:(reflexivity)) as C. replace ((w - u) * 0) with 0 in C by ring. apply (is_RInt_le (fun _ => 0) f u w); try assumption. intros x Hx. apply Fp. lra.
Qed.
Lemma cum_ok e : a <= e <= b -> iR f a e (cum e).
Proof. intros He. destruct (cum_sub a e ltac:(lra) ltac:(lra) ltac:(lra)) as (q & _ & Q). apply (@RInt_correct R_CompleteNormedModule). exists q. exact Q. Qed.
Lemma cum_is e q : iR f a e q -> cum e = q. Proof. intros H. apply (@is_RInt_unique R_CompleteNormedModule). exact H. Qed.
Lemma cum_add u w q : a <= u -> u <= w -> w <= b -> iR f u w q -> cum w = cum u + q.
Proof. intros H1 H2 H3 Q. apply cum_is. apply (iR_chasles f a u w); [apply cum_ok; lra|exact Q]. Qed.
Lemma cum_mono u w : a <= u -> u <= w -> w <= b -> cum u <= cum w.
Proof. intros H1 H2 H3. destruct (cum_sub u w H1 H2 H3) as (q & Q0 & Q). rewrite (cum_add u w q H1 H2 H3 Q). lra. Qed.
Lemma cum_a : cum a = 0. Proof. apply cum_is. apply (@is_RInt_point R_NormedModule). Qed.
Lemma cum_b : cum b = 1. Proof. apply cum_is. exact I1. Qed.
Lemma cum_bounds e : a <= e <= b -> 0 <= cum e <= 1.
Proof. intros He. rewrite <- cum_a, <- cum_b. split; apply cum_mono; lra. Qed.
Lemma cum_phi x : 0 < x < 1 -> cum (phi x) = x. Proof. intros Hx. apply cum_is. apply Hp. exact Hx. Qed.
Lemma phi_le x e : 0 < x < 1 -> a <= e <= b -> (x < cum e -> phi x <= e) /\ (cum e < x -> e < phi x).
Proof.
  intros Hx He. destruct (Hp x Hx) as [B _]. pose proof (cum_phi x Hx) as E. split; intros H.
  - destruct (Rle_dec (phi x) e) as [C|C]; [exact C|exfalso]. pose proof (cum_mono e (phi x) ltac:(lra) ltac:(lra) ltac:(lra)). lra.
  - destruct (Rlt_dec e (phi x)) as [C|C]; [exact C|exfalso]. pose proof (cum_mono (phi x) e ltac:(lra) ltac:(lra) ltac:(lra)). lra.
Qed.
(** [q] as a function of the random number is [G] as a function of the energy *)
Definition moved (G q : R -> R) (u w : R) : Prop := exists I : R, iR (fun h => f h * G h) u w I /\ iR q (cum u) (cum w) I.
Lemma moved_join G q u v w : moved G q u v -> moved G q v w -> moved G q u w.
Proof. intros (I & A1 & A2) (J & B1 & B2). exists (I + J). split; eapply iR_chasles; eassumption. Qed.
Lemma moved_point G q u : moved G q u u.
Proof. exists 0. split; apply (@is_RInt_point R_NormedModule). Qed.
Lemma moved_zero G q u w : a <= u -> u <= w -> w <= b -> (forall h, u < h < w -> f h = 0) -> moved G q u w.
Proof.
  intros H1 H2 H3 Z. exists 0. assert (Q : iR f u w 0) by (eapply iR_eq; [|apply (iR_const_on f u w 0 H2 Z)]; ring). split.
  - eapply iR_eq; [|apply (iR_const_on _ u w 0 H2)]; [ring|]. intros h Hh. rewrite Z by exact Hh. ring.
  - rewrite (cum_add u w 0 H1 H2 H3 Q), Rplus_0_r. apply (@is_RInt_point R_NormedModule).
Qed.
Lemma moved_piece (f0 G0 G q : R -> R) u w : a <= u -> u < w -> w <= b -> (forall h, continuous f0 h) -> (forall h, u < h < w -> 0 < f0 h /\ f h = f0 h) ->
  (forall h, u <= h <= w -> continuous G0 h) -> (forall h, u < h < w -> G h = G0 h) -> (forall x, 0 < x < 1 -> u < phi x < w -> q x = G0 (phi x)) -> moved G q u w.
Proof.
  intros H1 H2 H3 Cf Hf Cg Hg Hq.
  assert (If0 : forall p r, ex_RInt f0 p r) by (intros p r; apply (@ex_RInt_continuous R_CompleteNormedModule); intros; apply Cf).
  pose (C0 := fun e => cum u + RInt f0 u e).
  assert (DC : forall e, is_derive C0 e (f0 e)).
  { intros e. unfold C0. replace (f0 e) with (0 + f0 e) by ring. apply (@is_derive_plus R_AbsRing R_NormedModule (fun _ => cum u)); [apply (@is_derive_const R_AbsRing R_NormedModule)|].
    apply (is_derive_RInt f0 _ u); [|apply Cf]. apply filter_forall. intros z. apply (@RInt_correct R_CompleteNormedModule). apply If0. }
  assert (CC : forall e, u <= e <= w -> cum e = C0 e).
  { intros e He. unfold C0. apply cum_add; try lra. apply (iR_ext f0); [lra|intros x Hx; symmetry; apply Hf; lra|]. apply (@RInt_correct R_CompleteNormedModule). apply If0. }
  assert (SM : forall p r, u <= p -> p < r -> r <= w -> C0 p < C0 r).
  { intros p r P1 P2 P3. destruct (MVT_cor2 C0 f0 p r P2) as (c' & Ec' & Hc').
    { intros x Hx. apply is_derive_Reals. apply DC. }
    assert (0 < f0 c') by (apply Hf; lra). nra. }
  assert (Cu : C0 u = cum u) by (symmetry; apply CC; lra). assert (Cw : C0 w = cum w) by (symmetry; apply CC; lra).
  pose (H := fun x => if Rle_dec x (cum u) then u else if Rle_dec (cum w) x then w else phi x).
  assert (Luw : cum u < cum w) by (rewrite <- Cu, <- Cw; apply SM; lra). pose proof (cum_bounds u ltac:(lra)) as Bu. pose proof (cum_bounds w ltac:(lra)) as Bw.
  assert (In : forall x, cum u < x < cum w -> u < phi x < w /\ C0 (phi x) = x).
  { intros x Hx. assert (X : 0 < x < 1) by lra. destruct (phi_le x u X ltac:(lra)) as [_ P1]. destruct (phi_le x w X ltac:(lra)) as [P2 _]. specialize (P1 ltac:(lra)). specialize (P2 ltac:(lra)). rewrite <- CC by lra. pose proof (cum_phi x X) as E. split; [|exact E]. split; [exact P1|]. destruct P2 as [P2|P2]; [exact P2|]. rewrite P2 in E. lra. }
  assert (Rg : forall x, u <= H x <= w). { intros x. unfold H. destruct (Rle_dec x (cum u)); [lra|]. destruct (Rle_dec (cum w) x); [lra|]. destruct (In x ltac:(lra)). lra. }
  assert (Key : forall x e, u <= e < w -> (H x <= e <-> x <= C0 e)).
  { intros x e He. assert (M1 : C0 u <= C0 e) by (destruct (Req_dec u e) as [->|]; [lra|left; apply SM; lra]). assert (M2 : C0 e < C0 w) by (apply SM; lra). unfold H. destruct (Rle_dec x (cum u)); [split; intros; lra|]. destruct (Rle_dec (cum w) x); [split; intros; lra|]. destruct (In x ltac:(lra)) as [P E]. split; intros Q.
    - destruct Q as [Q|Q]; [|rewrite <- Q; lra]. pose proof (SM (phi x) e ltac:(lra) Q ltac:(lra)). lra.
    - destruct (Rle_dec (phi x) e) as [Y|Y]; [exact Y|exfalso]. pose proof (SM e (phi x) ltac:(lra) ltac:(lra) ltac:(lra)). lra. }
  assert (CH : forall x, continuous H x).
  { intros x. apply (filterlim_locally (F := locally x)). intros eps. set (e0 := H x). pose proof (Rg x) as R0. fold e0 in R0. destruct eps as [eps Pe]. cbn.
    assert (Up : locally x (fun z => H z < e0 + eps)).
    { destruct (Rlt_dec w (e0 + eps)) as [Y|Y]; [apply filter_forall; intros z; pose proof (Rg z); lra|]. 
      assert (X : x < C0 (e0 + eps / 2)). { apply Rle_lt_trans with (C0 (e0 + eps / 4)); [apply Key; [lra|unfold e0 in *; lra]|apply SM; lra]. }
      apply (filter_imp (fun z => z < C0 (e0 + eps / 2))); [|apply (open_lt (C0 (e0 + eps / 2))); exact X]. intros z Hz. assert (H z <= e0 + eps / 2) by (apply Key; [lra|left; exact Hz]). lra. }
    assert (Dn : locally x (fun z => e0 - eps < H z)).
    { destruct (Rlt_dec (e0 - eps) u) as [Y|Y]; [apply filter_forall; intros z; pose proof (Rg z); lra|].
      assert (X : C0 (e0 - eps / 2) < x). { apply Rnot_le_lt. intros Q. apply Key in Q; [unfold e0 in *; lra|lra]. }
      apply (filter_imp (fun z => C0 (e0 - eps / 2) < z)); [|apply (open_gt (C0 (e0 - eps / 2))); exact X]. intros z Hz. assert (~ H z <= e0 - eps / 2) by (intros Q; apply Key in Q; [lra|lra]). lra. }
    generalize (filter_and _ _ Up Dn). apply filter_imp. intros z [Z1 Z2]. change (Rabs (H z - e0) < eps). apply Rabs_def1; lra. }
  assert (CF : forall x, continuous (fun x => G0 (H x)) x) by (intros x; apply (continuous_comp H G0); [apply CH|apply Cg, Rg]).
  assert (HC : forall h, u < h < w -> H (C0 h) = h).
  { intros h Hh. apply Rle_antisym; [apply Key; lra|]. apply Rnot_lt_le. intros Q. pose proof (Rg (C0 h)) as Rh. assert (X : C0 h <= C0 (H (C0 h))) by (apply Key; lra). pose proof (SM (H (C0 h)) h ltac:(lra) Q ltac:(lra)). lra. }
  exists (RInt (fun x => G0 (H x)) (cum u) (cum w)). split.
  - rewrite <- Cu, <- Cw. pose proof (@is_RInt_comp R_CompleteNormedModule (fun x => G0 (H x)) C0 f0 u w) as K. cbv beta in K. eapply iR_ext; [lra| |apply K; [intros; apply CF|intros; split; [apply DC|apply Cf]]].
    intros h Hh. cbv beta. rewrite HC by exact Hh. destruct (Hf h Hh) as [_ ->]. rewrite Hg by exact Hh. reflexivity.
  - apply (iR_ext (fun x => G0 (H x))); [lra| |].
    + intros x Hx. destruct (In x Hx) as [P _]. unfold H. destruct (Rle_dec x (cum u)); [lra|]. destruct (Rle_dec (cum w) x); [lra|]. symmetry. apply Hq; [lra|exact P].
    + apply (@RInt_correct R_CompleteNormedModule). apply (@ex_RInt_continuous R_CompleteNormedModule). intros; apply CF.
Qed.
(** the cut at an energy *)
Lemma moved_cut G q e : a <= e <= b -> moved G q a e -> exists J : R, iR (fun h => f h * G h) a e J /\ iR (fun x => if Rle_dec (phi x) e then q x else 0) 0 1 J.
Proof.
  intros He (J & A1 & A2). rewrite cum_a in A2. exists J. split; [exact A1|]. pose proof (cum_bounds e He) as B. 
  replace J with (J + 0) by ring. apply (iR_chasles _ 0 (cum e) 1).
  - apply (iR_ext q); [lra| |exact A2]. intros x Hx. destruct (phi_le x e ltac:(lra) He) as [P _]. specialize (P ltac:(lra)). destruct (Rle_dec (phi x) e); [reflexivity|lra].
  - eapply iR_eq; [|apply (iR_const_on _ (cum e) 1 0); [lra|]]; [ring|]. intros x Hx. destruct (phi_le x e ltac:(lra) He) as [_ P]. specialize (P ltac:(lra)). destruct (Rle_dec (phi x) e); [lra|reflexivity].
Qed.
End Move.
