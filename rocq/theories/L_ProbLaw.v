(** * Laws of composed samplers: inverse CDF, two-way mixtures, mapped values, rejection under a curve *)
From Coq Require Import Reals Lra Lia List Arith. From Coquelicot Require Import Coquelicot.
From Verif Require Import Base NumR L_Search L_Legendre S_Prob L_Prob L_ProbEv. Import ListNotations.
Local Open Scope R_scope.
Local Notation iR := (@is_RInt R_NormedModule).
Definition open01 (ds : list R) : Prop := Forall (fun x => 0 < x < 1) ds.

(** samplers that agree on numbers of (0,1) have the same laws *)
Lemma law_same {A} (s s' : rand R A) (B : A -> Prop) q : (forall ds, open01 ds -> s ds = s' ds) -> law s B q -> law s' B q.
Proof.
  intros E (p & H & L). exists p. split; [|exact L]. intros k. apply (prob_ext k (fun ds => exists v rest, s ds = Ok (v, rest) /\ B v)); [|apply H]. intros l [_ F]. rewrite (E l F). reflexivity.
Qed.
Lemma law_ext01 {A} (s : rand R A) (B C : A -> Prop) q : (forall v ds r, open01 ds -> s ds = Ok (v, r) -> (B v <-> C v)) -> law s B q -> law s C q.
Proof.
  intros E (p & H & L). exists p. split; [|exact L]. intros k. apply (prob_ext k (fun ds => exists v rest, s ds = Ok (v, rest) /\ B v)); [|apply H]. intros l [_ F]. split; intros (v & r & X & Y); exists v, r; (split; [exact X|]); apply (E v l r F X); exact Y.
Qed.
Lemma law_never {A} (s : rand R A) (B : A -> Prop) : (forall v ds r, open01 ds -> s ds = Ok (v, r) -> ~ B v) -> law s B 0.
Proof. intros H. exists (fun _ => 0). split; [|apply is_lim_seq_const]. intros k. apply prob_never. intros l [_ F] (v & r & X & Y). exact (H v l r F X Y). Qed.
Lemma law_val {A} (s : rand R A) (B : A -> Prop) p q : p = q -> law s B p -> law s B q. Proof. intros ->. trivial. Qed.
Lemma law_map {A C} (s : rand R A) (s' : rand R C) (h : A -> C) (B : C -> Prop) q :
  (forall ds w r, open01 ds -> (s' ds = Ok (w, r) <-> exists v, s ds = Ok (v, r) /\ w = h v)) -> law s (fun v => B (h v)) q -> law s' B q.
Proof.
  intros E (p & H & L). exists p. split; [|exact L]. intros k. apply (prob_ext k (fun ds => exists v rest, s ds = Ok (v, rest) /\ B (h v))); [|apply H]. intros l [_ F]. split.
  - intros (v & r & X & Y). exists (h v), r. split; [|exact Y]. apply (E l _ _ F). exists v. tauto.
  - intros (w & r & X & Y). apply (E l _ _ F) in X as (v & X & ->). exists v, r. tauto.
Qed.
(** a first number decides between two samplers *)
Lemma law_branch {A} (s s1 s2 : rand R A) (B : A -> Prop) c q1 q2 : 0 <= c <= 1 -> (forall v r, s [] <> Ok (v, r)) ->
  (forall x ds, 0 < x < 1 -> open01 ds -> s (x :: ds) = if Rlt_dec c x then s1 ds else s2 ds) -> law s1 B q1 -> law s2 B q2 -> law s B ((1 - c) * q1 + c * q2).
Proof.
  intros Hc S0 S1 (p1 & H1 & L1) (p2 & H2 & L2). exists (fun k => match k with O => 0 | S m => (1 - c) * p1 m + c * p2 m end). split.
  - intros [|m].
    + apply prob_never. intros l [Hl _] (v & r & E & _). destruct l; [|discriminate]. exact (S0 v r E).
    + destruct (H1 m) as (f1 & I1 & E1), (H2 m) as (f2 & I2 & E2). exists (fun l => match l with x :: t => if Rlt_dec c x then f1 t else f2 t | _ => 0 end). split.
      * intros l Hl. destruct l as [|x t]; [destruct Hl; discriminate|]. apply ud_cons in Hl as [Hx Ht]. rewrite (S1 x t Hx (proj2 Ht)). destruct (Rlt_dec c x); [apply I1|apply I2]; exact Ht.
      * exists (fun x => if Rlt_dec c x then p1 m else p2 m). split; [intros x Hx; destruct (Rlt_dec c x); assumption|]. eapply iR_eq; [|apply (iR_step _ c (p2 m) (p1 m) Hc)]; [ring| |]; intros x Hx; destruct (Rlt_dec c x); try reflexivity; lra.
  - apply is_lim_seq_incr_1. apply (is_lim_seq_plus' (fun n => (1 - c) * p1 n) (fun n => c * p2 n)); [apply (is_lim_seq_scal_l p1 (1 - c) q1 L1)|apply (is_lim_seq_scal_l p2 c q2 L2)].
Qed.

(** ** densities *)
Lemma density_same (s s' : rand R R) a b f : (forall ds, open01 ds -> s ds = s' ds) -> has_density s a b f -> has_density s' a b f.
Proof. intros E [H1 H2]. split; [exact (law_same s s' _ _ E H1)|]. intros e He. destruct (H2 e He) as (q & L & I). exists q. split; [exact (law_same s s' _ _ E L)|exact I]. Qed.
Lemma density_ext (s : rand R R) a b f g : (forall x, a < x < b -> f x = g x) -> has_density s a b f -> has_density s a b g.
Proof. intros E [H1 H2]. split; [exact H1|]. intros e He. destruct (H2 e He) as (q & L & I). exists q. split; [exact L|]. apply (iR_ext f); [lra| |exact I]. intros x Hx. apply E. lra. Qed.
Lemma density_mix (s s1 s2 : rand R R) c a b f1 f2 : 0 <= c <= 1 -> (forall v r, s [] <> Ok (v, r)) ->
  (forall x ds, 0 < x < 1 -> open01 ds -> s (x :: ds) = if Rlt_dec c x then s1 ds else s2 ds) -> has_density s1 a b f1 -> has_density s2 a b f2 -> has_density s a b (fun x => (1 - c) * f1 x + c * f2 x).
Proof.
  intros Hc S0 S1 [A1 A2] [B1 B2]. split.
  - eapply law_val; [|exact (law_branch s s1 s2 _ c 1 1 Hc S0 S1 A1 B1)]. ring.
  - intros e He. destruct (A2 e He) as (q1 & L1 & I1), (B2 e He) as (q2 & L2 & I2). exists ((1 - c) * q1 + c * q2). split; [exact (law_branch s s1 s2 _ c q1 q2 Hc S0 S1 L1 L2)|]. apply iR_plus; apply iR_scal; assumption.
Qed.
Lemma density_widen (s : rand R R) a b a' b' f : a <= b -> a' <= a -> b <= b' -> (forall v ds r, open01 ds -> s ds = Ok (v, r) -> a <= v <= b) -> (forall x, x < a \/ b < x -> f x = 0) -> has_density s a b f -> has_density s a' b' f.
Proof.
  intros Hab Ha Hb Rg Z [A1 A2]. split.
  - apply (law_ext01 s (fun v => a <= v <= b)); [|exact A1]. intros v ds r F E. pose proof (Rg v ds r F E). split; intros; lra.
  - intros e He. assert (ZL : forall x, a' <= x <= a -> iR f a' x 0) by (intros x Hx; eapply iR_eq; [|apply (iR_const_on f a' x 0); [lra|intros y Hy; apply Z; lra]]; ring).
    destruct (Rlt_dec e a) as [C|C]; [|destruct (Rle_dec e b) as [D|D]].
    + exists 0. split; [|apply ZL; lra]. apply law_never. intros v ds r F E X. pose proof (Rg v ds r F E). lra.
    + destruct (A2 e ltac:(lra)) as (q & L & I). exists q. split; [exact L|]. eapply iR_eq; [|eapply iR_chasles; [apply (ZL a); lra|exact I]]. ring.
    + destruct (A2 b ltac:(lra)) as (q & L & I). exists q. split.
      * apply (law_ext01 s (fun v => v <= b)); [|exact L]. intros v ds r F E. pose proof (Rg v ds r F E). split; intros; lra.
      * eapply iR_eq; [|eapply iR_chasles; [eapply iR_chasles; [apply (ZL a); lra|exact I]|apply (iR_const_on f b e 0); [lra|intros y Hy; apply Z; lra]]]. ring.
Qed.
Lemma ud1 l : unit_draws 1 l -> exists x, l = [x] /\ 0 < x < 1.
Proof. intros [L F]. destruct l as [|x [|]]; try discriminate. inversion F; subst. exists x. tauto. Qed.
(** the inverse of the cumulative function *)
Lemma density_inverse (s : rand R R) (phi : R -> R) a b (f : R -> R) : a <= b -> (forall v r, s [] <> Ok (v, r)) -> (forall x, a < x < b -> 0 <= f x) -> iR f a b 1 ->
  (forall x ds, 0 < x < 1 -> open01 ds -> s (x :: ds) = Ok (phi x, ds)) -> (forall x, 0 < x < 1 -> a <= phi x <= b /\ iR f a (phi x) x) -> has_density s a b f.
Proof.
  intros Hab S0 Fp I1 Hs Hp.
  assert (Sub : forall u w, a <= u -> u <= w -> w <= b -> exists q, 0 <= q /\ iR f u w q).
  { intros u w H1 H2 H3. assert (X : ex_RInt f u w). { apply (@ex_RInt_Chasles_1 R_CompleteNormedModule f u w b); [lra|]. apply (@ex_RInt_Chasles_2 R_CompleteNormedModule f a u b); [lra|]. exists 1. exact I1. } destruct X as (q & X). exists q. split; [|exact X].
    pose proof (iR_const_on (fun _ => 0) u w 0 H2 ltac:(reflexivity)) as C. replace ((w - u) * 0) with 0 in C by ring. apply (is_RInt_le (fun _ => 0) f u w); try assumption. intros x Hx. apply Fp. lra. }
  assert (Mono : forall u w p q, a <= u -> u <= w -> w <= b -> iR f a u p -> iR f a w q -> p <= q).
  { intros u w p q H1 H2 H3 P Q. destruct (Sub u w H1 H2 H3) as (d & D & X). pose proof (iR_chasles f a u w p d P X) as Y. assert (q = p + d); [|lra]. transitivity (RInt f a w); [symmetry|]; apply (@is_RInt_unique R_CompleteNormedModule); assumption. }
  assert (Uses : uses s 1 (fun l => match l with [x] => phi x | _ => 0 end)).
  { split.
    - intros l r Hl Hr. apply ud1 in Hl as (x & -> & Hx). cbn [app]. apply Hs; assumption.
    - intros l Hl v r. destruct l; [apply S0|cbn in Hl; lia]. }
  split.
  - apply (law_uses s 1 _ _ 1 Uses). apply prob_always. intros l Hl. apply ud1 in Hl as (x & -> & Hx). apply Hp. exact Hx.
  - intros e He. destruct (Sub a e ltac:(lra) ltac:(lra) ltac:(lra)) as (q & Q0 & Q). assert (Q1 : q <= 1) by (apply (Mono e b); try lra; assumption). exists q. split; [|exact Q].
    apply (law_uses s 1 _ _ q Uses). exists (fun l => match l with [x] => if Rle_dec (phi x) e then 1 else 0 | _ => 0 end). split.
    + intros l Hl. apply ud1 in Hl as (x & -> & Hx). destruct (Rle_dec (phi x) e); [left|right]; tauto.
    + exists (fun x => if Rle_dec (phi x) e then 1 else 0). split; [intros; reflexivity|]. eapply iR_eq; [|apply (iR_step _ q 1 0); [lra| |]]; [ring| |]; intros x Hx; destruct (Hp x ltac:(lra)) as [B X]; destruct (Rle_dec (phi x) e) as [C|C]; try reflexivity; exfalso.
      * pose proof (Mono e (phi x) q x ltac:(lra) ltac:(lra) ltac:(lra) Q X). lra.
      * pose proof (Mono (phi x) e x q ltac:(lra) ltac:(lra) ltac:(lra) X Q). lra.
Qed.
(** an affine image: v = lo + (h - a) (hi - lo) / (b - a) *)
Lemma density_affine (s s' : rand R R) a b lo hi (f : R -> R) : a < b -> lo < hi -> 
  (forall ds w r, open01 ds -> (s' ds = Ok (w, r) <-> exists v, s ds = Ok (v, r) /\ w = lo + (v - a) * ((hi - lo) / (b - a)))) ->
  has_density s a b f -> has_density s' lo hi (fun x => (b - a) / (hi - lo) * f (a + (x - lo) * ((b - a) / (hi - lo)))).
Proof.
  intros Hab Hlh E [A1 A2]. set (k := (b - a) / (hi - lo)). assert (Pk : 0 < k) by (apply Rdiv_lt_0_compat; lra). assert (Ek : (hi - lo) / (b - a) = / k) by (unfold k; field; lra). assert (Kk : (hi - lo) * k = b - a) by (unfold k; field; lra).
  assert (EV : forall v x, lo + (v - a) * / k <= x <-> v <= a + (x - lo) * k).
  { intros v x. split; intros H.
    - apply (Rmult_le_compat_r k) in H; [|lra]. replace ((lo + (v - a) * / k) * k) with (lo * k + v - a) in H by (field; lra). lra.
    - apply (Rmult_le_reg_r k); [lra|]. replace ((lo + (v - a) * / k) * k) with (lo * k + v - a) by (field; lra). lra. }
  split.
  - apply (law_map s s' _ _ _ E). apply (law_ext01 s (fun v => a <= v <= b)); [|exact A1]. intros v ds r _ _. rewrite Ek. rewrite EV. replace (a + (hi - lo) * k) with b by lra. assert (lo <= lo + (v - a) * / k <-> a <= v); [|tauto]. pose proof (Rinv_0_lt_compat k Pk). split; intros; nra.
  - intros e He. assert (B : a <= a + (e - lo) * k <= b) by (split; nra). destruct (A2 _ B) as (q & L & I). exists q. split.
    + apply (law_map s s' _ _ _ E). apply (law_ext01 s (fun v => v <= a + (e - lo) * k)); [|exact L]. intros v ds r _ _. rewrite Ek. symmetry. apply EV.
    + apply (iR_ext (fun x => k * f (k * x + (a - lo * k)))); [lra|intros x _; f_equal; f_equal; ring|]. apply (@is_RInt_comp_lin R_NormedModule f k (a - lo * k) lo e q). replace (k * lo + (a - lo * k)) with a by ring. replace (k * e + (a - lo * k)) with (a + (e - lo) * k) by ring. exact I.
Qed.
(** ** rejection under a curve *)
Lemma under_prob (q : R -> R) (c v : R) : 0 <= c <= 1 -> (forall x, 0 < x < 1 -> 0 <= q x <= 1) -> iR q 0 c v -> prob 2 (fun l => match l with [x; y] => y < q x /\ x <= c | _ => False end) v.
Proof.
  intros Hc Hq I. exists (fun l => match l with [x; y] => if Rlt_dec y (q x) then if Rle_dec x c then 1 else 0 else 0 | _ => 0 end). split.
  - intros l [L _]. destruct l as [|x [|y [|]]]; try discriminate. destruct (Rlt_dec y (q x)), (Rle_dec x c); tauto.
  - exists (fun x => if Rle_dec x c then q x else 0). split.
    + intros x Hx. exists (fun y => if Rlt_dec y (q x) then if Rle_dec x c then 1 else 0 else 0). split; [intros; reflexivity|]. eapply iR_eq; [|apply (iR_step _ (q x) (if Rle_dec x c then 1 else 0) 0 (Hq x Hx))].
      * destruct (Rle_dec x c); ring.
      * intros y Hy. destruct (Rlt_dec y (q x)); [reflexivity|lra].
      * intros y Hy. destruct (Rlt_dec y (q x)); [lra|reflexivity].
    + pose proof (iR_ext q (fun x => if Rle_dec x c then q x else 0) 0 c v ltac:(lra) ltac:(intros x Hx; cbv beta; destruct (Rle_dec x c); [reflexivity|lra]) I) as J1.
      pose proof (iR_const_on (fun x => if Rle_dec x c then q x else 0) c 1 0 ltac:(lra) ltac:(intros x Hx; cbv beta; destruct (Rle_dec x c); [lra|reflexivity])) as J2.
      eapply iR_eq; [|eapply iR_chasles; [exact J1|exact J2]]. ring.
Qed.
