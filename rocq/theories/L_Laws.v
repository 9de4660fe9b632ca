(** * Reading the secondary distributions of an ACE file (exact arithmetic) *)
From Coq Require Import Reals Lra Lia List ZifyBool ZifyNat.
From Verif Require Import Base NumR L_Search L_SearchR M_Interp M_Tab1D M_Func M_Grid M_PC M_OutE M_Spectra M_Kin M_Ace M_Neutron M_Laws S_Neutron S_Laws L_Grid L_Xs L_Neutron L_Neutron2 L_PC L_Ace.
Import ListNotations.
Local Open Scope R_scope.

Lemma wrap32_u z : u32 z -> wrap32 z = z.
Proof. unfold u32, wrap32. intros H. apply Z.mod_small. exact H. Qed.
Lemma Forall2_length {A B} {P : A -> B -> Prop} {l r} (H : Forall2 P l r) : length l = length r.
Proof. induction H; cbn; congruence. Qed.
Lemma mapR_Forall2 {A B} (f : A -> res B) l r : Forall2 (fun x y => f x = Ok y) l r -> mapR f l = Ok r.
Proof. induction 1 as [|x y l r E _ IH]; [reflexivity|]. cbn [mapR]. rewrite E. cbn [bind]. rewrite IH. reflexivity. Qed.
Lemma mapR_zseq {A B} (f : Z -> res B) (l : list A) (r : list B) k :
  length r = length l -> (forall j x y, nth_error l j = Some x -> nth_error r j = Some y -> f (k + Z.of_nat j)%Z = Ok y) ->
  mapR f (zseq k (length l)) = Ok r.
Proof.
  revert r k. induction l as [|x l IH]; intros [|y r] k L H; try discriminate; [reflexivity|].
  cbn [length]. rewrite zseq_cons. cbn [mapR]. specialize (H 0%nat x y eq_refl eq_refl) as H0. rewrite Z.add_0_r in H0. rewrite H0. cbn [bind].
  rewrite (IH r (k + 1)%Z).
  - reflexivity.
  - cbn in L. lia.
  - intros j x' y' E1 E2. replace (k + 1 + Z.of_nat j)%Z with (k + Z.of_nat (S j))%Z by lia. apply (H (S j)) with (x := x'); assumption.
Qed.
Lemma to_nat_sizeZ {A} (l : list A) : Z.to_nat (sizeZ l) = length l.
Proof. unfold sizeZ. apply Nat2Z.id. Qed.
Lemma sizeZ_len {A B} (l : list A) (r : list B) : length l = length r -> sizeZ l = sizeZ r.
Proof. unfold sizeZ. congruence. Qed.
Lemma holds_xss a i x b : holds a i (x :: b) -> xss a i = Ok x.
Proof. intros H. apply (holds_cons a i x b H). Qed.
Lemma holds_i32 a i z b : (- 2 ^ 31 <= z < 2 ^ 31)%Z -> holds a i (IZR z :: b) -> xss_i32 a i = Ok z.
Proof. intros U H. unfold xss_i32. rewrite (holds_xss _ _ _ _ H). cbn [bind]. apply trunc_i32_IZR, U. Qed.
Lemma holds_nth a i l j x : holds a i l -> nth_error l j = Some x -> xss a (i + Z.of_nat j) = Ok x.
Proof.
  intros (pre & post & E & S) H. unfold xss. rewrite E. rewrite atZ_app_r by lia.
  replace (i + Z.of_nat j - sizeZ pre)%Z with (Z.of_nat j) by lia. unfold atZ. replace (0 <=? Z.of_nat j)%Z with true by lia. rewrite Nat2Z.id.
  rewrite nth_error_app1 by (apply nth_error_Some; congruence). rewrite H. reflexivity.
Qed.
Lemma holds_vec_len a i (l : list R) n : sizeZ l = n -> holds a i l -> xss_vec a i n = Ok l.
Proof. intros <- H. apply holds_vec, H. Qed.
Lemma holds_nil_ge a i l : holds a i l -> (0 <= i)%Z.
Proof. intros (pre & post & _ & <-). apply sizeZ_nonneg. Qed.

(** ** tabulated densities *)
Lemma table_code_ok a i it v cols : table_interp it = true -> holds a i (table_block it v cols) -> table_code a i = Ok it.
Proof.
  intros T H. unfold table_block in H. cbn [app] in H. unfold table_code. destruct it; try discriminate T; cbn [table_interp_code] in H.
  - rewrite (holds_u32 a i 1 _ ltac:(unfold u32; lia) H). reflexivity.
  - rewrite (holds_u32 a i 2 _ ltac:(unfold u32; lia) H). reflexivity.
Qed.
Lemma table_cols a i it v cols : holds a i (table_block it v cols) -> holds a (i + 1) [IZR (sizeZ v)] /\ holds a (i + 2) v /\ holds a (i + 2 + sizeZ v) (concat cols).
Proof.
  intros H. unfold table_block in H. cbn [app] in H. apply holds_cons in H as [_ H].
  change (IZR (sizeZ v) :: v ++ concat cols) with ([IZR (sizeZ v)] ++ v ++ concat cols) in H.
  apply holds_app in H as [H1 H]. split; [exact H1|]. apply holds_app in H. replace (i + 1 + sizeZ [IZR (sizeZ v)])%Z with (i + 2)%Z in H by (unfold sizeZ; cbn [length]; lia). exact H.
Qed.
Lemma map_mul1 (l : list R) : map (fun v => @nmul R NumR v (@nofZ R NumR 1)) l = l.
Proof. rewrite <- (map_id l) at 2. apply map_ext. intros x. change (x * 1 = x). lra. Qed.
Lemma eqb_length_refl {A B} (l : list A) (r : list B) : length l = length r -> Nat.eqb (length l) (length r) = true.
Proof. intros ->. apply Nat.eqb_refl. Qed.

Lemma pc_read a i it v p c : table_interp it = true -> length p = length v -> length c = length v -> u32 (sizeZ v) -> holds a i (table_block it v [p; c]) ->
  pc_of_ace a i 1 = make_pc v p c it.
Proof.
  intros TI Lp Lc U H. unfold pc_of_ace. rewrite (table_code_ok _ _ _ _ _ TI H). cbn [bind]. apply table_cols in H as (H1 & H2 & H3).
  rewrite (holds_u32 _ _ _ _ U H1). cbn [bind]. unfold make_pc, make_pc_ace. rewrite TI, (eqb_length_refl v p), (eqb_length_refl p c) by congruence. cbn [guard bind andb].
  replace (negb (sizeZ v =? 0)%Z) with (negb (Nat.eqb (length v) 0)) by (unfold sizeZ; destruct v; cbn; [reflexivity|lia]).
  destruct (negb (Nat.eqb (length v) 0)) eqn:E0; cbn [guard bind]; [|reflexivity].
  rewrite (holds_vec _ _ _ H2). cbn [bind]. cbn [concat] in H3. rewrite app_nil_r in H3. apply holds_app in H3 as [H3 H4].
  rewrite (holds_vec_len _ _ p) by (exact H3 || apply sizeZ_len; congruence). cbn [bind].
  rewrite (sizeZ_len p v) in H4 by congruence. rewrite (holds_vec_len _ _ c) by (exact H4 || apply sizeZ_len; congruence). cbn [bind].
  rewrite E0. cbn [guard bind]. change 1 with (@nofZ R NumR 1). rewrite map_mul1. reflexivity.
Qed.
Lemma pc_read_layout a i t b : pc_layout t b -> holds a i b -> pc_of_ace a i 1 = Ok t.
Proof. intros (it & v & p & c & TI & Lp & Lc & U & -> & E) H. rewrite (pc_read _ _ _ _ _ _ TI Lp Lc U H). exact E. Qed.
Lemma bins_read a i b : sizeZ b = 33%Z -> holds a i b -> bins_of_ace a i = make_bins b.
Proof. intros L H. unfold bins_of_ace. rewrite (holds_vec_len _ _ b) by assumption. reflexivity. Qed.
Lemma make_bins_33 (b c : list R) : make_bins b = Ok c -> sizeZ b = 33%Z.
Proof. unfold make_bins, guard. destruct (Nat.eqb (length b) 33) eqn:E; [|discriminate]. apply Nat.eqb_eq in E. unfold sizeZ. lia. Qed.
Lemma kt_read a i it v p c r s : table_interp it = true -> length p = length v -> length c = length v -> length r = length v -> length s = length v -> u32 (sizeZ v) ->
  holds a i (table_block it v [p; c; r; s]) -> kt_of_ace a i = make_kt v p c r s it.
Proof.
  intros TI Lp Lc Lr Ls U H. unfold kt_of_ace. rewrite (table_code_ok _ _ _ _ _ TI H). cbn [bind]. apply table_cols in H as (H1 & H2 & H3).
  rewrite (holds_u32 _ _ _ _ U H1). cbn [bind]. rewrite (holds_vec _ _ _ H2). cbn [bind]. cbn [concat] in H3. rewrite app_nil_r in H3.
  apply holds_app in H3 as [H3 H4]. rewrite (sizeZ_len p v) in H4 by congruence. apply holds_app in H4 as [H4 H5]. rewrite (sizeZ_len c v) in H5 by congruence.
  apply holds_app in H5 as [H5 H6]. rewrite (sizeZ_len r v) in H6 by congruence.
  rewrite (holds_vec_len _ _ p) by (exact H3 || apply sizeZ_len; congruence). cbn [bind].
  rewrite (holds_vec_len _ _ c) by (exact H4 || apply sizeZ_len; congruence). cbn [bind].
  rewrite (holds_vec_len _ _ r) by (exact H5 || apply sizeZ_len; congruence). cbn [bind].
  rewrite (holds_vec_len _ _ s) by (exact H6 || apply sizeZ_len; congruence). cbn [bind]. reflexivity.
Qed.
Lemma kt_read_layout a i t b : kt_layout t b -> holds a i b -> kt_of_ace a i = Ok t.
Proof. intros (it & v & p & c & r & s & TI & Lp & Lc & Lr & Ls & U & -> & E) H. rewrite (kt_read _ _ _ _ _ _ _ _ TI Lp Lc Lr Ls U H). exact E. Qed.
Lemma make_eat_angles v p c x y it (t : eat R) : make_eat v p c x it = Ok t -> make_eat v p c y it = Ok (mkEAT (ea_energy t) (ea_pdf t) (ea_cdf t) y (ea_interp t)) /\ ea_angles t = x.
Proof.
  unfold make_eat. intros H.
  apply bind_ok in H as (u1 & E1 & H). apply bind_ok in H as (u2 & E2 & H). apply bind_ok in H as (u3 & E3 & H). apply bind_ok in H as (c0 & E4 & H).
  destruct (negb (@neqb R NumR c0 (@nofZ R NumR 0))) eqn:E5; [discriminate|]. apply bind_ok in H as (d & E6 & H). apply bind_ok in H as (u7 & E7 & H).
  injection H as <-. rewrite E1, E2, E3, E4, E6, E7. cbn [bind]. rewrite E5. split; reflexivity.
Qed.
Lemma eat_read a i JED t b : eat_layout a JED t b -> holds a i b -> eat_of_ace a i JED = Ok t.
Proof.
  intros (it & v & p & c & locs & angles & TI & Lp & Lc & Ll & U & -> & F & FA & E) H. unfold eat_of_ace. rewrite (table_code_ok _ _ _ _ _ TI H). cbn [bind]. apply table_cols in H as (H1 & H2 & H3).
  rewrite (holds_u32 _ _ _ _ U H1). cbn [bind]. rewrite (holds_vec _ _ _ H2). cbn [bind]. cbn [concat] in H3. rewrite app_nil_r in H3.
  apply holds_app in H3 as [H3 H4]. rewrite (sizeZ_len p v) in H4 by congruence. apply holds_app in H4 as [H4 H5]. rewrite (sizeZ_len c v) in H5 by congruence.
  rewrite (holds_vec_len _ _ p) by (exact H3 || apply sizeZ_len; congruence). cbn [bind].
  rewrite (holds_vec_len _ _ c) by (exact H4 || apply sizeZ_len; congruence). cbn [bind].
  destruct (make_eat_angles _ _ _ _ [] _ _ E) as [E' Ea]. rewrite E'. cbn [bind ea_energy ea_pdf ea_cdf ea_interp].
  rewrite to_nat_sizeZ. rewrite <- Ll. rewrite (mapR_zseq _ locs locs).
  - cbn [bind]. assert (G : mapR (eat_angle_of_ace a JED) locs = Ok angles).
    { apply mapR_Forall2. clear - F FA. revert F. induction FA as [|l t ls ts (b & Hb & Lt) _ IH]; intros F; [constructor|].
      apply Forall_cons_iff in F as [[N Rg] F]. constructor; [|apply IH, F]. unfold eat_angle_of_ace, i32, in_i32.
      replace ((- 2 ^ 31 <=? Z.abs l) && (Z.abs l <? 2 ^ 31))%Z%bool with true by lia. cbn [bind]. apply (pc_read_layout _ _ _ _ Lt Hb). }
    rewrite G. cbn [bind]. f_equal. rewrite <- Ea. destruct t; reflexivity.
  - reflexivity.
  - intros j x y Ex Ey. assert (y = x) by congruence. subst y.
    assert (In x locs) by (apply nth_error_In with j; exact Ex). rewrite Forall_forall in F. specialize (F x H).
    unfold xss_i32. rewrite (holds_nth _ _ _ j (IZR x) H5); [|unfold nums; apply map_nth_error; exact Ex]. cbn [bind]. apply trunc_i32_IZR. lia.
Qed.

(** ** laws on incident energies *)
Lemma incident_read a i NBT INT energy entries : regions_ok NBT INT -> u32 (sizeZ energy) -> holds a i (incident_block NBT INT energy entries) ->
  exists k, read_incident a i = Ok (k, sizeZ energy, energy) /\ holds a k entries.
Proof.
  intros (LI & FN & FI & SN) UE H. unfold incident_block in H. pose proof (sizeZ_nonneg NBT).
  assert (U0 : u32 (sizeZ NBT)) by (unfold u32; lia). unfold read_incident. cbn [app] in H. rewrite (holds_u32 _ _ _ _ U0 H). cbn [bind]. apply holds_cons in H as [_ H].
  rewrite wrap32_id by lia. apply holds_app in H as [H1 H]. apply holds_app in H as [H2 H]. rewrite !sizeZ_nums in H. rewrite !sizeZ_nums in H2.
  rewrite (sizeZ_len INT NBT) in H by congruence.
  replace (i + 1 + sizeZ NBT + sizeZ NBT)%Z with (i + 1 + 2 * sizeZ NBT)%Z in H by lia.
  rewrite (holds_u32 _ _ _ _ UE H). cbn [bind]. apply holds_cons in H as [_ H]. replace (i + 1 + 2 * sizeZ NBT + 1)%Z with (i + 2 + 2 * sizeZ NBT)%Z in H by lia.
  apply holds_app in H as [H3 H4]. rewrite (holds_vec _ _ _ H3). cbn [bind]. eexists. split; [reflexivity|exact H4].
Qed.
Lemma tables_read {A} (mk : ace R -> Z -> res A) (layout : A -> list R -> Prop) a base k (locs : list Z) ts (n : nat) :
  (forall i t b, layout t b -> holds a i b -> mk a i = Ok t) -> laid_out a base layout locs ts -> holds a k (nums locs) -> length locs = n ->
  mapR (table_at mk a base) (zseq k n) = Ok ts.
Proof.
  intros HM L H <-. apply mapR_zseq; [symmetry; apply (Forall2_length L)|].
  intros j l t El Et. unfold laid_out in L.
  assert (P : u32 l /\ u32 (base + l - 1) /\ exists b, holds a (base + l - 1) b /\ layout t b).
  { clear - L El Et. revert j El Et. induction L as [|x y ls ys P _ IH]; intros [|j] El Et; try discriminate; cbn in El, Et; [injection El as <-; injection Et as <-; exact P|]. apply (IH j); assumption. }
  destruct P as (U1 & U2 & b & Hb & Lt). unfold table_at, xss_u32. rewrite (holds_nth _ _ _ j (IZR l) H) by (unfold nums; apply map_nth_error; exact El). cbn [bind].
  rewrite (trunc_u32_IZR l U1). cbn [bind]. rewrite wrap32_u by exact U2. apply (HM _ _ b Lt Hb).
Qed.
Lemma tabe_read a i JED NBT INT energy locs ts : regions_ok NBT INT -> u32 (sizeZ energy) -> length locs = length energy -> laid_out a JED pc_layout locs ts ->
  holds a i (incident_block NBT INT energy (nums locs)) -> tabe_of_ace a i JED = Ok (mkTabE energy ts).
Proof.
  intros RO UE LL LO H. unfold tabe_of_ace. destruct (incident_read _ _ _ _ _ _ RO UE H) as (k & -> & Hk). cbn [bind]. rewrite to_nat_sizeZ.
  rewrite (tables_read _ pc_layout a JED k locs ts); [reflexivity| |exact LO|exact Hk|exact LL]. intros i' t b Lt Hb. apply (pc_read_layout _ _ _ _ Lt Hb).
Qed.
Lemma make_tabe_eq energy ts (d : tabe R) : make_tabe energy ts = Ok d -> d = mkTabE energy ts.
Proof. unfold make_tabe. intros H. apply bind_ok in H as (? & _ & H). apply bind_ok in H as (? & _ & H). injection H as <-. reflexivity. Qed.
Lemma kal_read a i NBT INT energy locs ts : regions_ok NBT INT -> u32 (sizeZ energy) -> length locs = length energy -> laid_out a (DLW a) kt_layout locs ts ->
  holds a i (incident_block NBT INT energy (nums locs)) -> kal_of_ace a i = make_kal energy ts.
Proof.
  intros RO UE LL LO H. unfold kal_of_ace, make_kal. destruct (incident_read _ _ _ _ _ _ RO UE H) as (k & -> & Hk). cbn [bind].
  rewrite (eqb_length_refl energy ts) by (rewrite <- LL; apply (Forall2_length LO)). cbn [guard bind]. destruct (guard (is_sorted energy)); cbn [bind]; try reflexivity.
  rewrite to_nat_sizeZ. rewrite (tables_read _ kt_layout a (DLW a) k locs ts); [reflexivity| |exact LO|exact Hk|exact LL]. intros i' t b Lt Hb. apply (kt_read_layout _ _ _ _ Lt Hb).
Qed.
Lemma tea_read a i NBT INT energy locs ts : regions_ok NBT INT -> u32 (sizeZ energy) -> length locs = length energy -> laid_out a (DLW a) (eat_layout a (DLW a)) locs ts ->
  holds a i (incident_block NBT INT energy (nums locs)) -> tea_of_ace a i (DLW a) = make_tea energy ts.
Proof.
  intros RO UE LL LO H. unfold tea_of_ace, make_tea. destruct (incident_read _ _ _ _ _ _ RO UE H) as (k & -> & Hk). cbn [bind].
  rewrite (eqb_length_refl energy ts) by (rewrite <- LL; apply (Forall2_length LO)). cbn [guard bind]. destruct (guard (is_sorted energy)); cbn [bind]; try reflexivity.
  rewrite to_nat_sizeZ. rewrite (tables_read _ (eat_layout a (DLW a)) a (DLW a) k locs ts); [reflexivity| |exact LO|exact Hk|exact LL]. intros i' t b Lt Hb. apply (eat_read _ _ _ _ _ Lt Hb).
Qed.
Lemma concat_holds a n : forall (sets : list (list R)) k j s, Forall (fun s => sizeZ s = n) sets -> holds a k (concat sets) -> nth_error sets j = Some s -> holds a (k + Z.of_nat j * n) s.
Proof.
  induction sets as [|s0 sets IH]; intros k [|j] s F H E; try discriminate; cbn [concat] in H; apply Forall_cons_iff in F as [F0 F]; apply holds_app in H as [H1 H2].
  - cbn in E. injection E as <-. replace (k + Z.of_nat 0 * n)%Z with k by lia. exact H1.
  - cbn in E. rewrite F0 in H2. replace (k + Z.of_nat (S j) * n)%Z with (k + n + Z.of_nat j * n)%Z by lia. apply (IH (k + n)%Z j s); assumption.
Qed.
Lemma ebins_read a i NBT INT energy sets n : regions_ok NBT INT -> u32 (sizeZ energy) -> u32 n -> length sets = length energy -> Forall (fun s => sizeZ s = n) sets ->
  holds a i (incident_block NBT INT energy (IZR n :: concat sets)) -> ebins_of_ace a i = make_ebins energy sets.
Proof.
  intros RO UE Un LL F H. unfold ebins_of_ace, make_ebins. destruct (incident_read _ _ _ _ _ _ RO UE H) as (k & -> & Hk). cbn [bind].
  rewrite (eqb_length_refl energy sets) by congruence. cbn [guard bind]. destruct (guard (is_sorted energy)); cbn [bind]; try reflexivity.
  rewrite (holds_u32 _ _ _ _ Un Hk). cbn [bind]. apply holds_cons in Hk as [_ Hk]. rewrite to_nat_sizeZ. rewrite (mapR_zseq _ energy sets).
  - reflexivity.
  - congruence.
  - intros j x s Ex Es. rewrite Z.add_0_l. apply holds_vec_len.
    + rewrite Forall_forall in F. apply F. apply nth_error_In with j. exact Es.
    + apply (concat_holds _ n sets); assumption.
Qed.

(** ** tabulated parameters *)
Lemma pairs_read a i NBT INT energy y rest : regions_ok NBT INT -> u32 (sizeZ energy) -> length y = length energy -> holds a i (tab_block NBT INT energy y ++ rest) ->
  exists k, read_pairs a i = Ok (k, sizeZ energy, tabulated NBT INT energy y) /\ holds a (k + 2 * sizeZ energy) rest.
Proof.
  intros (LI & FN & FI & SN) UE LY H. unfold tab_block in H. rewrite <- !app_assoc in H. pose proof (sizeZ_nonneg NBT).
  assert (U0 : u32 (sizeZ NBT)) by (unfold u32; lia). unfold read_pairs. cbn [app] in H. rewrite (holds_u32 _ _ _ _ U0 H). cbn [bind]. apply holds_cons in H as [_ H].
  rewrite wrap32_id by lia. apply holds_app in H as [H1 H]. apply holds_app in H as [H2 H]. rewrite !sizeZ_nums in H. rewrite !sizeZ_nums in H2.
  rewrite (sizeZ_len INT NBT) in H by congruence.
  replace (i + 1 + sizeZ NBT + sizeZ NBT)%Z with (i + 1 + 2 * sizeZ NBT)%Z in H by lia.
  rewrite (holds_u32 _ _ _ _ UE H). cbn [bind]. apply holds_cons in H as [_ H]. replace (i + 1 + 2 * sizeZ NBT + 1)%Z with (i + 2 + 2 * sizeZ NBT)%Z in H by lia.
  apply holds_app in H as [H3 H4]. apply holds_app in H4 as [H4 H5]. rewrite (sizeZ_len y energy) in H5 by congruence.
  exists (i + 2 + 2 * sizeZ NBT)%Z. split.
  - assert (TB : (if (sizeZ NBT =? 0)%Z then Ok ([sizeZ energy], [LinLin])
                 else let! NBT' := xss_vec_u32 a (i + 1) (sizeZ NBT) in let! INT' := xss_vec_interp a (i + 1 + sizeZ NBT) (sizeZ NBT) in Ok (NBT', INT'))
             = Ok (match NBT with [] => ([sizeZ energy], [LinLin]) | _ => (NBT, map endf_interp INT) end)).
    { destruct NBT as [|b NBT]; [reflexivity|]. replace (sizeZ (b :: NBT) =? 0)%Z with false by (unfold sizeZ; cbn [length]; lia).
      rewrite (holds_vec_u32 a (b :: NBT)) by assumption. cbn [bind]. rewrite <- (sizeZ_len INT (b :: NBT)) at 2 by congruence. rewrite (holds_vec_interp a INT) by assumption. reflexivity. }
    rewrite TB. cbn [bind]. rewrite (holds_vec _ _ _ H3). cbn [bind]. rewrite (holds_vec_len _ _ y) by (exact H4 || apply sizeZ_len; congruence). cbn [bind].
    destruct NBT; reflexivity.
  - replace (i + 2 + 2 * sizeZ NBT + 2 * sizeZ energy)%Z with (i + 2 + 2 * sizeZ NBT + sizeZ energy + sizeZ energy)%Z by lia. exact H5.
Qed.
Lemma u32_half n : (0 <= n < 2 ^ 31)%Z -> u32 n /\ wrap32 (2 * n) = (2 * n)%Z.
Proof. intros H. split; [unfold u32; lia|]. apply wrap32_u. unfold u32. lia. Qed.
Lemma temp_read a i NBT INT energy y U : regions_ok NBT INT -> (sizeZ energy < 2 ^ 31)%Z -> length y = length energy -> holds a i (tab_block NBT INT energy y ++ [U]) ->
  temp_of_ace a i = let! t := tabulated NBT INT energy y in Ok (t, U).
Proof.
  intros RO SE LY H. pose proof (sizeZ_nonneg energy) as NN. destruct (u32_half (sizeZ energy)) as [UE W]; [lia|]. unfold temp_of_ace.
  destruct (pairs_read _ _ _ _ _ _ _ RO UE LY H) as (k & -> & Hk). cbn [bind]. rewrite W, (holds_xss _ _ _ _ Hk). reflexivity.
Qed.
Lemma watt_read a i N1 I1 e1 y1 N2 I2 e2 y2 U : regions_ok N1 I1 -> (sizeZ e1 < 2 ^ 31)%Z -> length y1 = length e1 -> regions_ok N2 I2 -> (sizeZ e2 < 2 ^ 31)%Z -> length y2 = length e2 ->
  holds a i (tab_block N1 I1 e1 y1 ++ tab_block N2 I2 e2 y2 ++ [U]) ->
  watt_of_ace a i = let! t1 := tabulated N1 I1 e1 y1 in let! t2 := tabulated N2 I2 e2 y2 in Ok (mkWatt (tab_eval t1) (tab_eval t2) U).
Proof.
  intros R1 S1 L1 R2 S2 L2 H. pose proof (sizeZ_nonneg e1). pose proof (sizeZ_nonneg e2). destruct (u32_half (sizeZ e1)) as [U1 W1]; [lia|]. destruct (u32_half (sizeZ e2)) as [U2 W2]; [lia|].
  unfold watt_of_ace. destruct (pairs_read _ _ _ _ _ _ _ R1 U1 L1 H) as (k & -> & Hk). cbn [bind]. destruct (tabulated N1 I1 e1 y1); cbn [bind]; try reflexivity.
  rewrite W1. destruct (pairs_read _ _ _ _ _ _ _ R2 U2 L2 Hk) as (k2 & -> & Hk2). cbn [bind]. destruct (tabulated N2 I2 e2 y2); cbn [bind]; try reflexivity.
  rewrite W2, (holds_xss _ _ _ _ Hk2). reflexivity.
Qed.
Lemma level_read a i C1 C2 : holds a i [C1; C2] -> level_of_ace a i = Ok (mkLevel C1 C2).
Proof. intros H. unfold level_of_ace. rewrite (holds_xss _ _ _ _ H). cbn [bind]. apply holds_cons in H as [_ H]. rewrite (holds_xss _ _ _ _ H). reflexivity. Qed.
Lemma dphoton_read a i lp Eg : (- 2 ^ 31 <= lp < 2 ^ 31)%Z -> holds a i [IZR lp; Eg] -> dphoton_of_ace a i = make_dphoton lp Eg (a_awr a).
Proof. intros U H. unfold dphoton_of_ace. rewrite (holds_i32 _ _ _ _ U H). cbn [bind]. apply holds_cons in H as [_ H]. rewrite (holds_xss _ _ _ _ H). reflexivity. Qed.
Lemma nbody_read a i n Ap Q : u32 n -> holds a i [IZR n; Ap] -> nbody_of_ace a i Q = make_nbody n Ap (a_awr a) Q.
Proof. intros U H. unfold nbody_of_ace. rewrite (holds_u32 _ _ _ _ U H). cbn [bind]. apply holds_cons in H as [_ H]. rewrite (holds_xss _ _ _ _ H). reflexivity. Qed.
(** what GeneralEvaporation reads as bounds: the count, then all but the last bound *)
Lemma gevap_read a i NBT INT energy y bounds : regions_ok NBT INT -> (sizeZ energy < 2 ^ 31)%Z -> length y = length energy -> u32 (sizeZ bounds) ->
  holds a i (tab_block NBT INT energy y ++ IZR (sizeZ bounds) :: bounds) ->
  gevap_of_ace a i = (guard (is_sorted (removelast (IZR (sizeZ bounds) :: bounds))) ;; let! t := tabulated NBT INT energy y in Ok (mkGE (tab_eval t) (removelast (IZR (sizeZ bounds) :: bounds)))).
Proof.
  intros RO SE LY UB H. pose proof (sizeZ_nonneg energy) as NN. destruct (u32_half (sizeZ energy)) as [UE W]; [lia|]. unfold gevap_of_ace.
  destruct (pairs_read _ _ _ _ _ _ _ RO UE LY H) as (k & -> & Hk). cbn [bind]. rewrite W, (holds_u32 _ _ _ _ UB Hk). cbn [bind].
  assert (Hr : holds a (k + 2 * sizeZ energy) (removelast (IZR (sizeZ bounds) :: bounds))).
  { destruct (exists_last (l := IZR (sizeZ bounds) :: bounds)) as (l' & x & El); [discriminate|]. rewrite El. rewrite removelast_last. rewrite El in Hk. apply holds_app in Hk as [Hk _]. exact Hk. }
  rewrite (holds_vec_len _ _ (removelast (IZR (sizeZ bounds) :: bounds))); [reflexivity| |exact Hr].
  pose proof (app_removelast_last 0 (l := IZR (sizeZ bounds) :: bounds) ltac:(discriminate)) as E. apply (f_equal (@length R)) in E. rewrite app_length in E. cbn [length] in E. unfold sizeZ at 1. unfold sizeZ in E |- *. lia.
Qed.
