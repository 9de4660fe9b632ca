(** * Laws of the thermal samplers: continuous outgoing energies *)
From Coq Require Import Reals Lra Lia List Arith ZArith ZifyBool ZifyNat. From Coquelicot Require Import Coquelicot.
From Verif Require Import Base NumR S_Prob S_Mix S_Replay L_Search L_SearchR M_Interp M_Grid M_PC S_PC L_PC L_PCR M_OutE M_Thermal S_OutE S_Thermal S_ThermalLaw L_Angle L_Grid L_OutE L_Thermal L_Thermal2 L_Legendre L_Prob L_ProbEv L_ProbLaw L_ProbLoop L_ProbComp3 L_Replay. Import ListNotations.
Local Open Scope R_scope.
Local Notation iR := (@is_RInt R_NormedModule).

(** the numbers x whose image is at most e *)
Lemma inverse_step (phi : R -> R) a b (f : R -> R) : a <= b -> (forall x, a < x < b -> 0 <= f x) -> iR f a b 1 -> (forall x, 0 < x < 1 -> a <= phi x <= b /\ iR f a (phi x) x) ->
  forall e, a <= e <= b -> exists q, iR f a e q /\ iR (fun x => if Rle_dec (phi x) e then 1 else 0) 0 1 q.
Proof.
  intros Hab Fp I1 Hp.
  assert (Sub : forall u w, a <= u -> u <= w -> w <= b -> exists q, 0 <= q /\ iR f u w q).
  { intros u w H1 H2 H3. assert (X : ex_RInt f u w). { apply (@ex_RInt_Chasles_1 R_CompleteNormedModule f u w b); [lra|]. apply (@ex_RInt_Chasles_2 R_CompleteNormedModule f a u b); [lra|]. exists 1. exact I1. } destruct X as (q & X). exists q. split; [|exact X].
    pose proof (iR_const_on (fun _ => 0) u w 0 H2 ltac:(reflexivity)) as C. replace ((w - u) * 0) with 0 in C by ring. apply (is_RInt_le (fun _ => 0) f u w); try assumption. intros x Hx. apply Fp. lra. }
  assert (Mono : forall u w p q, a <= u -> u <= w -> w <= b -> iR f a u p -> iR f a w q -> p <= q).
  { intros u w p q H1 H2 H3 P Q. destruct (Sub u w H1 H2 H3) as (d & D & X). pose proof (iR_chasles f a u w p d P X) as Y. assert (q = p + d); [|lra]. transitivity (RInt f a w); [symmetry|]; apply (@is_RInt_unique R_CompleteNormedModule); assumption. }
  intros e He. destruct (Sub a e ltac:(lra) ltac:(lra) ltac:(lra)) as (q & Q0 & Q). assert (Q1 : q <= 1) by (apply (Mono e b); try lra; assumption). exists q. split; [exact Q|].
  eapply iR_eq; [|apply (iR_step _ q 1 0); [lra| |]]; [ring| |]; intros x Hx; destruct (Hp x ltac:(lra)) as [B X]; destruct (Rle_dec (phi x) e) as [C|C]; try reflexivity.
  - pose proof (Mono e (phi x) q x ltac:(lra) ltac:(lra) ltac:(lra) Q X). lra.
  - pose proof (Mono (phi x) e x q ltac:(lra) ltac:(lra) ltac:(lra) X Q). lra.
Qed.
Lemma prob_firstn n m (X : list R -> Prop) p : prob n X p -> prob (n + m) (fun l => X (firstn n l)) p.
Proof.
  intros (f & H & E). exists (fun l => f (firstn n l)). split; [|apply expect_firstn, E]. intros l Hl. apply ud_split in Hl as (a & b & -> & Ha & Hb).
  rewrite firstn_app, (proj1 Ha), Nat.sub_diag, firstn_O, app_nil_r. rewrite <- (proj1 Ha) at 1 2 3 4. rewrite firstn_all. apply H, Ha.
Qed.
(** choose with the second number between two functions of the first *)
Lemma prob_two (P Q : R -> Prop) (dP : forall x, {P x} + {~ P x}) (dQ : forall x, {Q x} + {~ Q x}) f p q : 0 <= f <= 1 -> iR (fun x => if dP x then 1 else 0) 0 1 p -> iR (fun x => if dQ x then 1 else 0) 0 1 q ->
  prob 2 (fun l => match l with [x; y] => if Rlt_dec f y then P x else Q x | _ => False end) ((1 - f) * p + f * q).
Proof.
  intros F Hp Hq. exists (fun l => match l with [x; y] => if Rlt_dec f y then (if dP x then 1 else 0) else (if dQ x then 1 else 0) | _ => 0 end). split.
  - intros l [L _]. destruct l as [|x [|y [|]]]; try discriminate. destruct (Rlt_dec f y); [destruct (dP x)|destruct (dQ x)]; tauto.
  - exists (fun x => (1 - f) * (if dP x then 1 else 0) + f * (if dQ x then 1 else 0)). split.
    + intros x Hx. exists (fun y => if Rlt_dec f y then (if dP x then 1 else 0) else (if dQ x then 1 else 0)). split; [intros; reflexivity|].
      eapply iR_eq; [|apply (iR_step _ f (if dQ x then 1 else 0) (if dP x then 1 else 0)); [exact F| |]]; [ring| |]; intros y Hy; destruct (Rlt_dec f y); try reflexivity; lra.
    + apply (iR_add (fun x => (1 - f) * (if dP x then 1 else 0)) (fun x => f * (if dQ x then 1 else 0))); apply iR_mul; assumption.
Qed.
Definition ctE (t : ctable R) (xi : R) : R := match ct_sample t xi with Ok (h, _) => h | _ => 0 end.
Definition ct_dens (t : ctable R) : R -> R := dens (ct_energy t) (ct_pdf t) (ct_cdf t) LinLin.
Lemma ct_step0 nmu t : valid_ct nmu t -> forall e, first_of (ct_energy t) <= e <= last_of (ct_energy t) ->
  exists q, iR (ct_dens t) (first_of (ct_energy t)) e q /\ iR (fun x => if Rle_dec (ctE t x) e then 1 else 0) 0 1 q.
Proof.
  intros V. pose proof (valid_wide _ _ _ _ (proj2 V)) as W. apply inverse_step; [lra| | |].
  - intros x _. apply (dens_nonneg _ _ _ _ (proj2 V)).
  - pose proof (vt_nonempty _ _ _ _ (proj2 V)) as Hn. pose proof (integral_from_0 _ _ _ _ (proj2 V) (sizeZ (ct_energy t) - 1)%Z ltac:(lia)) as H. pose proof (vt_last _ _ _ _ (proj2 V)) as L. rewrite (sc_size2 _ _ (proj1 V)) in L. rewrite L in H. exact H.
  - intros x Hx. destruct (ct_sample_spec nmu t x V ltac:(lra)) as (h & j & Eh & J0 & J1 & JC & JE & JI). unfold ctE. rewrite Eh. split; [|exact JI].
    pose proof (sc_energy _ _ (proj1 V)) as It. unfold first_of, last_of. assert (getR (ct_energy t) 0 <= getR (ct_energy t) j) by (apply It; lia). assert (getR (ct_energy t) (j + 1) <= getR (ct_energy t) (sizeZ (ct_energy t) - 1)) by (apply It; lia). lra.
Qed.
(** two functions that agree between the points of a table have the same integrals *)
Lemma piecewise_same (f g : R -> R) (v : list R) : increasing v -> (forall j x, (0 <= j)%Z -> (j + 1 < sizeZ v)%Z -> getR v j < x < getR v (j + 1) -> f x = g x) ->
  forall k, (0 <= Z.of_nat k < sizeZ v)%Z -> forall e q, getR v 0 <= e <= getR v (Z.of_nat k) -> iR f (getR v 0) e q -> iR g (getR v 0) e q.
Proof.
  intros I H. induction k as [|k IH]; intros Hk e q He Q.
  - cbn in He. assert (e = getR v 0) as -> by lra. apply (iR_ext f); [lra|intros; lra|exact Q].
  - destruct (Rle_dec e (getR v (Z.of_nat k))) as [L|L]; [apply IH; [lia|lra|exact Q]|]. set (m := getR v (Z.of_nat k)) in *.
    assert (Hm : getR v 0 <= m) by (apply I; lia).
    assert (X1 : ex_RInt f (getR v 0) m) by (apply (@ex_RInt_Chasles_1 R_CompleteNormedModule f (getR v 0) m e); [lra|exists q; exact Q]). assert (X2 : ex_RInt f m e) by (apply (@ex_RInt_Chasles_2 R_CompleteNormedModule f (getR v 0) m e); [lra|exists q; exact Q]).
    destruct X1 as (q1 & X1). destruct X2 as (q2 & X2). pose proof (iR_chasles f _ _ _ _ _ X1 X2) as Y. assert (q = q1 + q2) as -> by (transitivity (RInt f (getR v 0) e); [symmetry|]; apply (@is_RInt_unique R_CompleteNormedModule); assumption).
    apply (iR_chasles g _ m); [apply IH; [lia|split; [exact Hm|apply Rle_refl]|exact X1]|]. apply (iR_ext f); [lra| |exact X2]. intros x Hx. apply (H (Z.of_nat k)); [lia|lia|]. fold m. replace (Z.of_nat k + 1)%Z with (Z.of_nat (S k)) by lia. lra.
Qed.
Lemma ct_step nmu t p : valid_ct nmu t -> tabulated t p -> forall e, first_of (ct_energy t) <= e <= last_of (ct_energy t) ->
  exists q, iR p (first_of (ct_energy t)) e q /\ iR (fun x => if Rle_dec (ctE t x) e then 1 else 0) 0 1 q.
Proof.
  intros V T e He. destruct (ct_step0 nmu t V e He) as (q & I & J). exists q. split; [|exact J]. pose proof (vt_nonempty _ _ _ _ (proj2 V)) as Hn.
  apply (piecewise_same (ct_dens t) p (ct_energy t) (sc_energy _ _ (proj1 V))) with (k := Z.to_nat (sizeZ (ct_energy t) - 1)); [|lia|rewrite Z2Nat.id by lia; exact He|exact I].
  intros j x H1 H2 Hx. rewrite (T j x H1 H2 Hx). unfold ct_dens. rewrite (dens_open _ _ _ _ (proj2 V) j x H1 H2 Hx). unfold seg, interpolate, linlin_interpolate, mix. rnum. field. lra.
Qed.
Lemma stretch_step nmu t p lo hi : valid_ct nmu t -> tabulated t p -> lo < hi -> forall e, lo <= e <= hi -> let a := first_of (ct_energy t) in let b := last_of (ct_energy t) in
  exists q, iR (stretched (p) a b lo hi) lo e q /\ iR (fun x => if Rle_dec (unit_base lo hi (ctE t x) a b) e then 1 else 0) 0 1 q.
Proof.
  intros V T Hlh e He a b. pose proof (valid_wide _ _ _ _ (proj2 V)) as W. fold a b in W. set (k := (b - a) / (hi - lo)). assert (Pk : 0 < k) by (apply Rdiv_lt_0_compat; lra). assert (Kk : (hi - lo) * k = b - a) by (unfold k; field; lra).
  assert (B : a <= a + (e - lo) * k <= b) by (split; nra). destruct (ct_step nmu t p V T _ B) as (q & I & J). exists q. split.
  - unfold stretched. fold k. apply (iR_ext (fun x => k * p (k * x + (a - lo * k)))); [lra|intros x _; f_equal; f_equal; ring|]. apply (@is_RInt_comp_lin R_NormedModule p k (a - lo * k) lo e q).
    replace (k * lo + (a - lo * k)) with a by ring. replace (k * e + (a - lo * k)) with (a + (e - lo) * k) by ring. exact I.
  - eapply is_RInt_ext; [|exact J]. intros x _. cbv beta. assert (U : unit_base lo hi (ctE t x) a b = lo + (ctE t x - a) / k) by (unfold unit_base, k; rnum; field; lra). rewrite U.
    assert (Q : lo + (ctE t x - a) / k <= e <-> ctE t x <= a + (e - lo) * k).
    { assert (Ex : ctE t x = a + (ctE t x - a) / k * k) by (field; lra). set (u := (ctE t x - a) / k) in *. rewrite Ex. split; intros; nra. }
    destruct (Rle_dec (ctE t x) (a + (e - lo) * k)), (Rle_dec (lo + (ctE t x - a) / k) e); try reflexivity; tauto.
Qed.
(** a sampler that ends after n numbers *)
Lemma uses_of {A} (s : rand R A) n (d0 : A) : replayable s -> (forall l, unit_draws n l -> exists v, s l = Ok (v, [])) -> (forall l v r, (length l < n)%nat -> s l <> Ok (v, r)) -> uses s n (fun l => match s l with Ok (v, _) => v | _ => d0 end).
Proof.
  intros Rp H L. split; [|intros l Hl v r; apply L; exact Hl]. intros l r Hl Hr. destruct (H l Hl) as (v & E). pose proof (Rp l) as Q. rewrite E in Q |- *. destruct Q as (u & Eu & Q). rewrite app_nil_r in Eu. subst u. apply Q.
Qed.
Lemma ct_cosine_short (t : ctable R) nmu xi j l v r : (length l < 2)%nat -> ct_cosine t nmu xi j l <> Ok (v, r).
Proof.
  intros L. unfold ct_cosine. destruct l as [|x [|z l]]; [discriminate| |cbn in L; lia]. unfold rbind at 1. cbn [draw bind].
  unfold rbind at 1, rlift at 1. destruct (trunc_u32 _); cbn [bind]; try discriminate. unfold rbind at 1, rlift at 1. destruct (atZ _ _); cbn [bind]; try discriminate. unfold rbind at 1, rlift at 1. destruct (atZ _ _); cbn [bind]; try discriminate.
  unfold rbind at 1, rlift at 1. destruct (atZ _ _); cbn [bind]; try discriminate. unfold rbind at 1, rlift at 1. destruct (atZ _ _); cbn [bind]; try discriminate.
  unfold smear. unfold rbind at 1 2, rlift at 1. destruct (lerp_at _ _ _ _); cbn [bind]; try discriminate. 
  unfold rbind, rlift, draw. destruct (if (a =? 0)%Z then _ else _); cbn [bind]; try discriminate. destruct (if (a =? wrap32 _)%Z then _ else _); cbn [bind]; discriminate.
Qed.
Lemma cedc_unit_eq d E l f t1 t2 xi y ds : shape_cedc d -> ce_unit d = true -> (2 <= sizeZ (ce_in d))%Z -> (forall t, In t (ce_tables d) -> valid_ct (ce_nmu d) t) -> bracket (ce_in d) E l f -> atZ (ce_tables d) l = Ok t1 -> atZ (ce_tables d) (l + 1) = Ok t2 ->
  let lo := mix f (first_of (ct_energy t1)) (first_of (ct_energy t2)) in let hi := mix f (last_of (ct_energy t1)) (last_of (ct_energy t2)) in let t := if Rlt_dec f y then t1 else t2 in
  0 < xi < 1 -> exists j, (0 <= j)%Z /\ (j + 1 < sizeZ (ct_energy t))%Z /\ cedc_sample d E (xi :: y :: ds) = let! mr := ct_cosine t (ce_nmu d) xi j ds in Ok ((fst mr, unit_base lo hi (ctE t xi) (first_of (ct_energy t)) (last_of (ct_energy t))), snd mr).
Proof.
  intros S U N2 VT B A1 A2 lo hi t XI. destruct (select_bracket (ce_in d) E (sd_in _ S) N2) as (l' & f' & Es & B' & F). destruct (bracket_unique _ _ _ _ _ _ (sd_in _ S) B' B) as [-> ->]. pose proof B as (B0 & B1 & _).
  destruct (shape_limits d l f S B0 B1) as (t1' & t2' & A1' & A2' & EL). rewrite A1 in A1'. apply Ok_eq in A1'. subst t1'. rewrite A2 in A2'. apply Ok_eq in A2'. subst t2'.
  assert (Ht1 : In t1 (ce_tables d)) by (eapply atZ_In; eassumption). assert (Ht2 : In t2 (ce_tables d)) by (eapply atZ_In; eassumption).
  assert (Ht : In t (ce_tables d)) by (unfold t; destruct (Rlt_dec f y); assumption).
  destruct (ct_sample_spec (ce_nmu d) t xi (VT t Ht) ltac:(lra)) as (h & j & Eh & J0 & J1 & _). exists j. split; [exact J0|]. split; [exact J1|].
  assert (EC : ctE t xi = h) by (unfold ctE; rewrite Eh; reflexivity). rewrite EC.
  unfold cedc_sample. rewrite U. cbn [negb]. unfold cedc_sample_unit. unfold rbind at 1. rewrite Es. cbn [rlift bind]. unfold rbind at 1. rewrite EL. cbn [rlift bind]. cbv zeta. cbn [u_t1 u_a1 u_b1 u_t2 u_a2 u_b2 u_min u_max]. fold lo hi.
  unfold rbind at 1. cbn [draw]. unfold rbind at 1. cbn [draw]. rch. unfold t in *. destruct (Rlt_dec f y) as [C|C]; [rewrite (proj2 (Rltb_true f y) C)|rewrite (proj2 (Rltb_false f y)) by lra];
    unfold rbind at 1; rewrite Eh; cbn [rlift bind]; unfold rbind, rret; destruct (ct_cosine _ _ _ _ _) as [[]| | |]; reflexivity.
Qed.
Lemma cedc_unit_uses d E : shape_cedc d -> ce_unit d = true -> (2 <= sizeZ (ce_in d))%Z -> (forall t, In t (ce_tables d) -> valid_ct (ce_nmu d) t) ->
  uses (cedc_sample d E) 4 (fun l => match cedc_sample d E l with Ok (v, _) => v | _ => (0, 0) end).
Proof.
  intros S U N2 VT. apply uses_of; [apply rp_cedc| |].
  - intros l [L F]. destruct l as [|xi [|y [|x [|z [|]]]]]; try discriminate. inversion F as [|a b H1 F1]; subst. inversion F1 as [|a b H2 F2]; subst. inversion F2 as [|a b H3 F3]; subst. inversion F3 as [|a b H4 F4]; subst.
    destruct (cedc_unit_spec d E xi y x z [] S N2 VT ltac:(lra) ltac:(lra) ltac:(lra)) as (l & f & t1 & t2 & h & j & k & mu & Eo & _ & _ & _ & Q & _). unfold cedc_sample. rewrite U. cbn [negb]. rewrite Q. eexists. reflexivity.
  - intros l v r L. unfold cedc_sample. rewrite U. cbn [negb]. unfold cedc_sample_unit. unfold rbind at 1, rlift at 1. destruct (select (ce_in d) E) as [[i f]| | |]; cbn [bind]; try discriminate. unfold rbind at 1, rlift at 1. destruct (limits _ _ _ _ _) as [u| | |]; cbn [bind]; try discriminate.
    destruct l as [|xi [|y l]]; try discriminate. unfold rbind at 1. cbn [draw bind]. unfold rbind at 1. cbn [draw bind]. destruct (if nltb f y then _ else _) as [[t a] b]. unfold rbind at 1, rlift at 1. destruct (ct_sample t xi) as [[h j]| | |]; cbn [bind]; try discriminate.
    unfold rbind at 1. destruct (ct_cosine t (ce_nmu d) xi j l) as [[mu r']| | |] eqn:EC; cbn [bind]; try discriminate. exfalso. refine (ct_cosine_short _ _ _ _ _ _ _ _ EC). cbn in L. lia.
Qed.

Lemma cedc_unit_law d E l f t1 t2 p1 p2 : shape_cedc d -> ce_unit d = true -> (2 <= sizeZ (ce_in d))%Z -> (forall t, In t (ce_tables d) -> valid_ct (ce_nmu d) t) -> bracket (ce_in d) E l f -> atZ (ce_tables d) l = Ok t1 -> atZ (ce_tables d) (l + 1) = Ok t2 -> tabulated t1 p1 -> tabulated t2 p2 ->
  let a1 := first_of (ct_energy t1) in let a2 := first_of (ct_energy t2) in let b1 := last_of (ct_energy t1) in let b2 := last_of (ct_energy t2) in let lo := mix f a1 a2 in let hi := mix f b1 b2 in
  law (cedc_sample d E) (fun v => -1 <= fst v <= 1 /\ lo <= snd v <= hi) 1 /\ forall e, lo <= e <= hi -> exists q, law (cedc_sample d E) (fun v => snd v <= e) q /\
    iR (fun x => (1 - f) * stretched p1 a1 b1 lo hi x + f * stretched p2 a2 b2 lo hi x) lo e q.
Proof.
  intros S U N2 VT B A1 A2 T1 T2 a1 a2 b1 b2 lo hi. pose proof (cedc_unit_uses d E S U N2 VT) as Us. set (phi := fun l => match cedc_sample d E l with Ok (v, _) => v | _ => (0, 0) end) in *.
  assert (Ht1 : In t1 (ce_tables d)) by (eapply atZ_In; eassumption). assert (Ht2 : In t2 (ce_tables d)) by (eapply atZ_In; eassumption).
  pose proof (valid_wide _ _ _ _ (proj2 (VT t1 Ht1))) as W1. pose proof (valid_wide _ _ _ _ (proj2 (VT t2 Ht2))) as W2.
  assert (F : 0 <= f <= 1). { destruct (select_bracket (ce_in d) E (sd_in _ S) N2) as (l' & f' & Es & B' & F). destruct (bracket_unique _ _ _ _ _ _ (sd_in _ S) B' B) as [-> ->]. exact F. }
  assert (Hlh : lo < hi) by (apply mix_lt; [exact F|exact W1|exact W2]).
  assert (Ev : forall xi y x z, 0 < xi < 1 -> 0 < y < 1 -> 0 < x < 1 -> 0 < z < 1 -> -1 <= fst (phi [xi; y; x; z]) <= 1 /\ snd (phi [xi; y; x; z]) = if Rlt_dec f y then unit_base lo hi (ctE t1 xi) a1 b1 else unit_base lo hi (ctE t2 xi) a2 b2).
  { intros xi y x z H1 H2 H3 H4. destruct (cedc_unit_eq d E l f t1 t2 xi y [x; z] S U N2 VT B A1 A2 H1) as (j & J0 & J1 & Q). unfold phi. rewrite Q. set (t := if Rlt_dec f y then t1 else t2) in *. assert (Ht : In t (ce_tables d)) by (unfold t; destruct (Rlt_dec f y); assumption).
    destruct (ct_cosine_ok (ce_nmu d) t xi j x z [] (sd_nmu _ S) (sd_tables _ S t Ht) J0 J1 ltac:(lra)) as (k & mu & _ & Em & MB & _). rewrite Em. cbn [bind fst snd]. split; [exact MB|]. unfold t. destruct (Rlt_dec f y); reflexivity. }
  split.
  - apply (law_uses _ 4 _ _ 1 Us). apply prob_always. intros q [L Fq]. destruct q as [|xi [|y [|x [|z [|]]]]]; try discriminate. inversion Fq as [|? ? H1 F1]; subst. inversion F1 as [|? ? H2 F2]; subst. inversion F2 as [|? ? H3 F3]; subst. inversion F3 as [|? ? H4 F4]; subst.
    split; [apply Ev; assumption|]. destruct (cedc_unit_spec d E xi y x z [] S N2 VT ltac:(lra) ltac:(lra) ltac:(lra)) as (l' & f' & t1' & t2' & h & j & k & mu & Eo & B' & A1' & A2' & Q & R & _).
    destruct (bracket_unique _ _ _ _ _ _ (sd_in _ S) B' B) as [-> ->]. rewrite A1 in A1'. apply Ok_eq in A1'. subst t1'. rewrite A2 in A2'. apply Ok_eq in A2'. subst t2'. unfold phi, cedc_sample. rewrite U. cbn [negb]. rewrite Q. exact R.
  - intros e He. destruct (stretch_step _ t1 p1 lo hi (VT t1 Ht1) T1 Hlh e He) as (q1 & I1 & P1). destruct (stretch_step _ t2 p2 lo hi (VT t2 Ht2) T2 Hlh e He) as (q2 & I2 & P2). exists ((1 - f) * q1 + f * q2). split.
    + apply (law_uses _ 4 _ _ _ Us). pose proof (prob_two _ _ _ _ f q1 q2 F P1 P2) as P. apply (prob_firstn 2 2) in P. eapply prob_ext; [|exact P].
      intros q [L Fq]. destruct q as [|xi [|y [|x [|z [|]]]]]; try discriminate. inversion Fq as [|? ? H1 F1]; subst. inversion F1 as [|? ? H2 F2]; subst. inversion F2 as [|? ? H3 F3]; subst. inversion F3 as [|? ? H4 F4]; subst.
      cbn [firstn]. change (2 + 2)%nat with 4%nat. rewrite (proj2 (Ev xi y x z H1 H2 H3 H4)). fold a1 b1 a2 b2. destruct (Rlt_dec f y); reflexivity.
    + apply (iR_add (fun x => (1 - f) * stretched p1 a1 b1 lo hi x) (fun x => f * stretched p2 a2 b2 lo hi x)); apply iR_mul; assumption.
Qed.
(** ** the nearest table *)
Lemma shifted_mono h h' e E : 0 < e -> e / 2 < E -> (shifted h e E <= shifted h' e E <-> h <= h').
Proof.
  intros Pe HE. set (k := 2 * E / e - 1). assert (Pk : 0 < k) by (unfold k; assert (1 < 2 * E / e); [|lra]; apply Rmult_lt_reg_r with e; [exact Pe|]; unfold Rdiv; rewrite Rmult_assoc, Rinv_l by lra; lra).
  assert (Ke : e / 2 * k = E - e / 2) by (unfold k; field; lra). unfold shifted. fold k. destruct (Rlt_dec h (e / 2)), (Rlt_dec h' (e / 2)); split; intros; nra.
Qed.
Lemma cedc_near_eq d E l f t xi ds : shape_cedc d -> ce_unit d = false -> (2 <= sizeZ (ce_in d))%Z -> (forall t, In t (ce_tables d) -> valid_ct (ce_nmu d) t) -> bracket (ce_in d) E l f -> atZ (ce_tables d) (nearest_of l f) = Ok t ->
  0 < xi < 1 -> exists j, (0 <= j)%Z /\ (j + 1 < sizeZ (ct_energy t))%Z /\ cedc_sample d E (xi :: ds) = let! mr := ct_cosine t (ce_nmu d) xi j ds in Ok ((fst mr, shifted (ctE t xi) (getR (ce_in d) (nearest_of l f)) E), snd mr).
Proof.
  intros S U N2 VT B Et XI. destruct (select_bracket (ce_in d) E (sd_in _ S) N2) as (l' & f' & Es & B' & F). destruct (bracket_unique _ _ _ _ _ _ (sd_in _ S) B' B) as [-> ->]. pose proof B as (B0 & B1 & _).
  assert (Hi : (0 <= nearest_of l f < sizeZ (ce_in d))%Z) by (unfold nearest_of; destruct (Rlt_dec _ f); lia). assert (Ht : In t (ce_tables d)) by (eapply atZ_In; eassumption).
  destruct (ct_sample_spec (ce_nmu d) t xi (VT t Ht) ltac:(lra)) as (h & j & Eh & J0 & J1 & _). exists j. split; [exact J0|]. split; [exact J1|].
  assert (EC : ctE t xi = h) by (unfold ctE; rewrite Eh; reflexivity). rewrite EC. unfold cedc_sample. rewrite U. cbn [negb].
  unfold cedc_sample_nearest. unfold rbind at 1. rewrite Es. cbn [rlift bind]. cbv zeta. replace (if nltb _ f then (l + 1)%Z else l) with (nearest_of l f).
  2:{ unfold nearest_of, nlit. rch. destruct (Rlt_dec (1 / 2) f) as [C|C]; [rewrite (proj2 (Rltb_true _ f) C)|rewrite (proj2 (Rltb_false _ f)) by lra]; reflexivity. }
  set (i := nearest_of l f) in *. unfold rbind at 1. cbn [draw]. unfold rbind at 1. rewrite Et. cbn [rlift bind]. unfold rbind at 1. rewrite Eh. cbn [rlift bind]. unfold rbind at 1. rewrite (atR (ce_in d)) by exact Hi. cbn [rlift bind].
  unfold rbind, rret. destruct (ct_cosine _ _ _ _ _) as [[mu r]| | |]; try reflexivity. cbn [bind fst snd]. do 3 f_equal. unfold shifted, nlit. rch.
  destruct (Rlt_dec h (getR (ce_in d) i / 2)) as [C|C]; [rewrite (proj2 (Rltb_true _ _)) by lra|rewrite (proj2 (Rltb_false _ _)) by lra]; reflexivity.
Qed.
Lemma cedc_near_law d E l f t p : shape_cedc d -> ce_unit d = false -> (2 <= sizeZ (ce_in d))%Z -> (forall t, In t (ce_tables d) -> valid_ct (ce_nmu d) t) -> bracket (ce_in d) E l f -> atZ (ce_tables d) (nearest_of l f) = Ok t ->
  let e := getR (ce_in d) (nearest_of l f) in tabulated t p -> 0 < e -> e / 2 < E ->
  law (cedc_sample d E) (fun v => -1 <= fst v <= 1 /\ shifted (first_of (ct_energy t)) e E <= snd v <= shifted (last_of (ct_energy t)) e E) 1 /\ forall h, first_of (ct_energy t) <= h <= last_of (ct_energy t) ->
    exists q, law (cedc_sample d E) (fun v => snd v <= shifted h e E) q /\ iR p (first_of (ct_energy t)) h q.
Proof.
  intros S U N2 VT B Et e T Pe HE. assert (Ht : In t (ce_tables d)) by (eapply atZ_In; eassumption).
  assert (Ev : forall xi x z, 0 < xi < 1 -> 0 < x < 1 -> 0 < z < 1 -> exists mu, cedc_sample d E [xi; x; z] = Ok ((mu, shifted (ctE t xi) e E), []) /\ -1 <= mu <= 1).
  { intros xi x z H1 H3 H4. destruct (cedc_near_eq d E l f t xi [x; z] S U N2 VT B Et H1) as (j & J0 & J1 & Q). rewrite Q.
    destruct (ct_cosine_ok (ce_nmu d) t xi j x z [] (sd_nmu _ S) (sd_tables _ S t Ht) J0 J1 ltac:(lra)) as (k & mu & _ & Em & MB & _). rewrite Em. exists mu. split; [reflexivity|exact MB]. }
  assert (Us : uses (cedc_sample d E) 3 (fun l => match cedc_sample d E l with Ok (v, _) => v | _ => (0, 0) end)).
  { apply uses_of; [apply rp_cedc| |].
    - intros q [L F]. destruct q as [|xi [|x [|z [|]]]]; try discriminate. inversion F as [|a b H1 F1]; subst. inversion F1 as [|a b H2 F2]; subst. inversion F2 as [|a b H3 F3]; subst. destruct (Ev xi x z H1 H2 H3) as (mu & Q & _). rewrite Q. eexists. reflexivity.
    - intros q v r L. unfold cedc_sample. rewrite U. cbn [negb]. unfold cedc_sample_nearest, rbind, rlift. destruct (select (ce_in d) E) as [[i g]| | |]; cbn [bind]; try discriminate. cbv zeta.
      destruct q as [|xi q]; [discriminate|]. cbn [draw]. set (n0 := if nltb _ g then _ else _). destruct (atZ (ce_tables d) n0) as [u| | |] eqn:EU; rewrite ?EU; cbn [bind]; try discriminate. destruct (ct_sample u xi) as [[h j]| | |]; cbn [bind]; try discriminate.
      destruct (atZ (ce_in d) _); cbn [bind]; try discriminate.
      destruct (ct_cosine u (ce_nmu d) xi j q) as [[mu r']| | |] eqn:EC; cbn [bind]; try discriminate. exfalso. refine (ct_cosine_short _ _ _ _ _ _ _ _ EC). cbn in L. lia.
}
  split.
  - apply (law_uses _ 3 _ _ 1 Us). apply prob_always. intros q [L Fq]. destruct q as [|xi [|x [|z [|]]]]; try discriminate. inversion Fq as [|? ? H1 F1]; subst. inversion F1 as [|? ? H2 F2]; subst. inversion F2 as [|? ? H3 F3]; subst.
    destruct (Ev xi x z H1 H2 H3) as (mu & Q & MB). rewrite Q. cbn [fst snd]. split; [exact MB|]. rewrite !shifted_mono by assumption.
    destruct (ct_sample_spec (ce_nmu d) t xi (VT t Ht) ltac:(lra)) as (h & j & Eh & J0 & J1 & JC & JE & JI). unfold ctE. rewrite Eh.
    pose proof (sc_energy _ _ (proj1 (VT t Ht))) as It. unfold first_of, last_of. assert (getR (ct_energy t) 0 <= getR (ct_energy t) j) by (apply It; lia). assert (getR (ct_energy t) (j + 1) <= getR (ct_energy t) (sizeZ (ct_energy t) - 1)) by (apply It; lia). lra.
  - intros h Hh. destruct (ct_step _ t p (VT t Ht) T h Hh) as (q & I & J). exists q. split; [|exact I]. apply (law_uses _ 3 _ _ _ Us).
    assert (P : prob 1 (fun l => match l with [x] => ctE t x <= h | _ => False end) q).
    { exists (fun l => match l with [x] => if Rle_dec (ctE t x) h then 1 else 0 | _ => 0 end). split; [|exists (fun x => if Rle_dec (ctE t x) h then 1 else 0); split; [intros; reflexivity|exact J]].
      intros k [L _]. destruct k as [|x [|]]; try discriminate. destruct (Rle_dec (ctE t x) h); tauto. }
    apply (prob_firstn 1 2) in P. eapply prob_ext; [|exact P]. intros k [L Fq]. destruct k as [|xi [|x [|z [|]]]]; try discriminate. inversion Fq as [|? ? H1 F1]; subst. inversion F1 as [|? ? H2 F2]; subst. inversion F2 as [|? ? H3 F3]; subst.
    destruct (Ev xi x z H1 H2 H3) as (mu & Q & MB). rewrite Q. cbn [fst snd firstn]. rewrite shifted_mono by assumption. reflexivity.
Qed.
