(** * Delayed families; files on which the laws are misread *)
From Coq Require Import Reals Lra Lia List ZifyBool ZifyNat.
From Verif Require Import Base NumR L_Search L_SearchR M_Interp M_Tab1D M_Func M_Grid M_PC M_OutE M_Spectra M_Kin M_Ace M_Neutron M_Laws S_Neutron S_Laws L_Grid L_Xs L_Neutron L_Neutron2 L_PC L_OutE L_Ace L_Laws L_Laws2 L_Laws3.
Import ListNotations.
Local Open Scope R_scope.

Lemma delayed_law_read a g e : delayed_law a g e -> load_delayed_law a g = Ok e.
Proof.
  intros (locc & next & law & idat & data & Ul & Ui & Un & IL & EL & HB & HD & L). unfold load_delayed_law. rewrite (entry_u32 _ _ _ Ul EL). cbn [bind].
  rewrite (holds_i32 _ _ _ _ Un HB). cbn [bind]. apply holds_cons in HB as [_ HB].
  assert (Bl : (- 2 ^ 31 <= law < 2 ^ 31)%Z) by (cbn in IL; lia). rewrite (holds_i32 _ _ _ _ Bl HB). cbn [bind]. apply holds_cons in HB as [_ HB].
  replace (DNED a + locc - 1 + 1 + 1)%Z with (DNED a + locc - 1 + 2)%Z in HB by lia. rewrite (holds_u32 _ _ _ _ Ui HB). cbn [bind].
  replace ((law =? 2) || (law =? 3))%Z%bool with false by (cbn in IL; lia). rewrite (energy_law_read _ _ _ _ _ _ L HD). reflexivity.
Qed.
Lemma delayed_law_unknown a g locc next law idat : u32 locc -> u32 idat -> (- 2 ^ 31 <= next < 2 ^ 31)%Z -> (- 2 ^ 31 <= law < 2 ^ 31)%Z -> ~ In law [1; 4; 5; 7; 9; 11]%Z ->
  entry a (DNEDL a + g - 1) (IZR locc) -> holds a (DNED a + locc - 1) [IZR next; IZR law; IZR idat] -> load_delayed_law a g = Throw.
Proof.
  intros Ul Ui Un Bl IL EL HB. unfold load_delayed_law. rewrite (entry_u32 _ _ _ Ul EL). cbn [bind].
  rewrite (holds_i32 _ _ _ _ Un HB). cbn [bind]. apply holds_cons in HB as [_ HB]. rewrite (holds_i32 _ _ _ _ Bl HB). cbn [bind]. apply holds_cons in HB as [_ HB].
  replace (DNED a + locc - 1 + 1 + 1)%Z with (DNED a + locc - 1 + 2)%Z in HB by lia. rewrite (holds_u32 _ _ _ _ Ui HB). cbn [bind].
  destruct ((law =? 2) || (law =? 3))%Z%bool eqn:E; [reflexivity|]. rewrite energy_law_none; [reflexivity|]. unfold plain_law. cbn [existsb]. cbn in IL. lia.
Qed.
Lemma wrap32_add z : u32 z -> wrap32 z = z.
Proof. apply wrap32_u. Qed.
Lemma sizeZ_tab_block NBT INT energy (p : list R) : length INT = length NBT -> length p = length energy -> sizeZ (tab_block NBT INT energy p) = (2 + 2 * (sizeZ NBT + sizeZ energy))%Z.
Proof. intros LI LY. unfold tab_block, nums, sizeZ. repeat rewrite app_length. rewrite !map_length. cbn [length]. lia. Qed.
Lemma family_read a g f b i : family_layout a g f b -> holds a i b -> make_family load_delayed_law a i g = Ok f /\
  exists NR NE, xss_u32 a (i + 1) = Ok NR /\ xss_u32 a (i + 2 + wrap32 (2 * NR)) = Ok NE /\ wrap32 (3 + 2 * (NR + NE)) = sizeZ b.
Proof.
  intros (c & t & p & NBT & INT & energy & (LI & LY & FN & FI & SN & SE & ET) & S30 & -> & E1 & E2 & E3) H. pose proof (holds_xss _ _ _ _ H) as Hc. apply holds_cons in H as [_ H].
  pose proof (sizeZ_nonneg NBT). pose proof (sizeZ_nonneg energy).
  assert (T : read_tab a (i + 1) = Ok t) by (rewrite (read_tab_block a _ NBT INT energy p LI LY FN FI SN SE H); exact ET).
  split.
  - unfold make_family. rewrite Hc. cbn [bind]. rewrite T. cbn [bind]. rewrite (delayed_law_read _ _ _ E3). cbn [bind]. f_equal. destruct f as [fc fp fe]. cbn in E1, E2, E3. subst. reflexivity.
  - exists (sizeZ NBT), (sizeZ energy). unfold tab_block in H. cbn [app] in H. split; [apply (holds_u32 a _ (sizeZ NBT) _ ltac:(unfold u32; lia) H)|]. apply holds_cons in H as [_ H].
    apply holds_app in H as [_ H]. apply holds_app in H as [_ H]. cbn [app] in H. rewrite !sizeZ_nums in H. rewrite (sizeZ_len INT NBT LI) in H.
    rewrite wrap32_u by (unfold u32; lia). split.
    + replace (i + 2 + 2 * sizeZ NBT)%Z with (i + 1 + 1 + sizeZ NBT + sizeZ NBT)%Z by lia. apply (holds_u32 _ _ _ _ SE H).
    + rewrite sizeZ_cons, (sizeZ_tab_block _ _ _ _ LI LY). rewrite wrap32_u by (unfold u32; lia). lia.
Qed.
Lemma families_read a : forall n g fs bs i, length fs = n -> families_layout a g fs bs -> holds a i bs -> families_loop load_delayed_law n a i g = Ok fs.
Proof.
  induction n as [|n IH]; intros g fs bs i L F H; destruct F as [g|g f b fs bs Fb F]; cbn in L; try discriminate; [reflexivity|].
  apply holds_app in H as [H1 H2]. destruct (family_read _ _ _ _ _ Fb H1) as (E & NR & NE & E1 & E2 & E3). cbn [families_loop]. rewrite E. cbn [bind]. rewrite E1. cbn [bind]. rewrite E2. cbn [bind]. rewrite E3.
  rewrite (IH _ fs bs) by (lia || assumption). reflexivity.
Qed.
Lemma make_families_read a fs bs : (0 < BDD a)%Z -> nxs a 7 = sizeZ fs -> (sizeZ fs < 2 ^ 32)%Z -> families_layout a 1 fs bs -> holds a (BDD a) bs -> make_families load_delayed_law a = Ok fs.
Proof.
  intros B N S F H. unfold make_families. replace (0 <? BDD a)%Z with true by lia. rewrite N. pose proof (sizeZ_nonneg fs). rewrite wrap32_u by (unfold u32; lia).
  apply families_read with bs; [rewrite to_nat_sizeZ; reflexivity|exact F|exact H].
Qed.

(** ** a law that names itself as the next one *)
Lemma self_loop a angle q loc law idat NBT INT energy p t data d : u32 loc -> (0 < loc)%Z -> u32 idat -> (- 2 ^ 31 <= law < 2 ^ 31)%Z -> regions_ok NBT INT -> u32 (sizeZ energy) -> length p = length energy ->
  holds a (DLW a + loc - 1) ([IZR loc; IZR law; IZR idat] ++ tab_block NBT INT energy p) -> tabulated NBT INT energy p = Ok t ->
  holds a (DLW a + idat - 1) data -> law_layout a angle q law data d -> forall n, law_loop n a angle q (DLW a + loc - 1) = NoDraw.
Proof.
  intros Un Pn Ui Ul RO UE LP H Et Hd L. induction n as [|n IH]; [reflexivity|]. cbn [law_loop]. cbn [app] in H. rewrite (holds_u32 a _ loc _ Un H). cbn [bind]. apply holds_cons in H as [_ H].
  rewrite (holds_i32 _ _ _ _ Ul H). cbn [bind]. apply holds_cons in H as [_ H]. replace (DLW a + loc - 1 + 1 + 1)%Z with (DLW a + loc - 1 + 2)%Z in H by lia.
  rewrite (holds_u32 _ _ _ _ Ui H). cbn [bind]. apply holds_cons in H as [_ H]. replace (DLW a + loc - 1 + 2 + 1)%Z with (DLW a + loc - 1 + 3)%Z in H by lia.
  rewrite <- (app_nil_r (tab_block _ _ _ _)) in H. destruct (pairs_read _ _ _ _ _ _ _ RO UE LP H) as (k & -> & _). cbn [bind snd]. rewrite Et. cbn [bind].
  rewrite (make_law_read _ _ _ _ _ _ _ L Hd). cbn [bind]. replace (loc =? 0)%Z with false by lia. rewrite IH. reflexivity.
Qed.
(** ** misread laws *)
(** locator 0 of an outgoing-energy table (isotropic in the ACE format) reads at the entry before the DLW block *)
Lemma angle_locator_0 a JED z : u32 z -> z <> 1%Z -> z <> 2%Z -> entry a (JED - 1) (IZR z) -> eat_angle_of_ace a JED 0 = Throw.
Proof.
  intros U N1 N2 E. unfold eat_angle_of_ace. change (i32 (Z.abs 0)) with (Ok 0%Z). cbn [bind]. replace (JED + 0 - 1)%Z with (JED - 1)%Z by lia.
  unfold pc_of_ace, table_code. rewrite (entry_u32 _ _ _ U E). cbn [bind]. replace (z =? 1)%Z with false by lia. replace (z =? 2)%Z with false by lia. reflexivity.
Qed.
Lemma eat_locator_0 a i JED it v p c locs angles t z : table_interp it = true -> length p = length v -> length c = length v -> length v = S (length locs) -> u32 (sizeZ v) ->
  holds a i (table_block it v [p; c; nums (0%Z :: locs)]) -> Forall (fun l => - 2 ^ 31 <= l < 2 ^ 31)%Z locs ->
  make_eat v p c angles it = Ok t -> u32 z -> z <> 1%Z -> z <> 2%Z -> entry a (JED - 1) (IZR z) -> eat_of_ace a i JED = Throw.
Proof.
  intros TI Lp Lc Ll U H F E Uz N1 N2 EZ. unfold eat_of_ace. rewrite (table_code_ok _ _ _ _ _ TI H). cbn [bind]. apply table_cols in H as (H1 & H2 & H3).
  rewrite (holds_u32 _ _ _ _ U H1). cbn [bind]. rewrite (holds_vec _ _ _ H2). cbn [bind]. cbn [concat] in H3. rewrite app_nil_r in H3.
  apply holds_app in H3 as [H3 H4]. rewrite (sizeZ_len p v) in H4 by congruence. apply holds_app in H4 as [H4 H5]. rewrite (sizeZ_len c v) in H5 by congruence.
  rewrite (holds_vec_len _ _ p) by (exact H3 || apply sizeZ_len; congruence). cbn [bind].
  rewrite (holds_vec_len _ _ c) by (exact H4 || apply sizeZ_len; congruence). cbn [bind].
  destruct (make_eat_angles _ _ _ _ [] _ _ E) as [E' _]. rewrite E'. cbn [bind ea_energy ea_pdf ea_cdf ea_interp].
  rewrite to_nat_sizeZ. rewrite Ll. rewrite (mapR_zseq _ (0%Z :: locs) (0%Z :: locs)).
  - cbn [bind mapR]. rewrite (angle_locator_0 _ _ _ Uz N1 N2 EZ). reflexivity.
  - reflexivity.
  - intros j x y Ex Ey. assert (y = x) by congruence. subst y.
    assert (In x (0%Z :: locs)) by (apply nth_error_In with j; exact Ex). assert (- 2 ^ 31 <= x < 2 ^ 31)%Z by (destruct H as [<-|H]; [lia|rewrite Forall_forall in F; apply (F x H)]).
    unfold xss_i32. rewrite (holds_nth _ _ _ j (IZR x) H5); [|unfold nums; apply map_nth_error; exact Ex]. cbn [bind]. apply trunc_i32_IZR. lia.
Qed.
