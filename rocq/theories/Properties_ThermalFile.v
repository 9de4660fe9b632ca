(** * C99: thermal scattering files are decoded as laid out *)
From Coq Require Import Reals Lra Lia List Permutation ZifyBool ZifyNat.
From Verif Require Import Base NumR L_Search L_SearchR M_Interp M_Tab1D M_Grid M_Ace M_Thermal S_Neutron L_Ace S_ThermalFile L_ThermalFile L_Linearize2 L_TabCtor.
Import ListNotations.
Local Open Scope R_scope.

(** Bragg edges and cumulated structure factors *)
Theorem C99_coherent : forall a edges sums, nxs a 4 = 4%Z -> u32 (sizeZ edges) -> length sums = length edges -> edges <> [] ->
  holds a (jxs a 3 - 1) (counted edges sums) ->
  (increasing edges -> 0 <= getR edges 0 -> make_coh a = Ok (mkCoh edges sums)) /\ (~ increasing edges \/ getR edges 0 < 0 -> make_coh a = Throw).
Proof. intros a edges sums N U L NE H. split; [intros I P; exact (coh_read a edges sums N U L NE I P H)|exact (coh_reject a edges sums N U L NE H)]. Qed.
Print Assumptions C99_coherent.

(** incoherent elastic: energies, cross sections, and one row of NXS(6)+1 cosines per energy *)
Theorem C99_incoherent_elastic : forall a energy xs rows n t, nxs a 4 <> 4%Z -> jxs a 3 <> 0%Z -> u32 (sizeZ energy) -> length xs = length energy -> Forall (fun v => 0 <= v) xs ->
  make_tab1 LinLin energy xs = Ok t -> (nxs a 5 + 1 = n)%Z -> (0 < n < 2 ^ 31)%Z -> length rows = length energy -> Forall (ascending_cosines n) rows ->
  holds a (jxs a 3 - 1) (counted energy xs) -> holds a (jxs a 5 - 1) (concat rows) -> make_inco a = Ok (mkInco t n energy rows).
Proof. exact inco_read. Qed.
Print Assumptions C99_incoherent_elastic.

(** discrete inelastic: per incident energy NXS(4) lines, each an energy and NXS(3)+1 cosines; NXS(7) = 1 means skewed *)
Theorem C99_discrete : forall a energy xs rows noe nmu (skewed : bool), nxs a 6 = (if skewed then 1 else 0)%Z -> u32 (sizeZ energy) -> length xs = length energy -> increasing energy ->
  nxs a 3 = noe -> (0 <= noe < 2 ^ 31)%Z -> (skewed = true -> 6 <= noe)%Z -> (nxs a 2 + 1 = nmu)%Z -> (0 <= nmu < 2 ^ 31)%Z ->
  length rows = length energy -> Forall (fun r => sizeZ r = noe /\ Forall (line_ok nmu) r) rows ->
  holds a (jxs a 0 - 1) (counted energy xs) -> holds a (jxs a 2 - 1) (lines_block rows) -> make_dce a = Ok (mkDCE energy rows noe nmu skewed).
Proof. exact dce_read. Qed.
Print Assumptions C99_discrete.

(** continuous inelastic: locators and sizes, then per incident energy a table of entries with NXS(3)-1 cosines each *)
Theorem C99_continuous : forall a u energy xs locs noes tabs n, nxs a 6 = 2%Z -> u32 (sizeZ energy) -> length xs = length energy -> increasing energy -> (nxs a 2 - 1 = n)%Z -> (0 < n < 2 ^ 31)%Z ->
  (0 < jxs a 2 <= 2 ^ 31)%Z -> (sizeZ energy < 2 ^ 31)%Z -> length locs = length energy -> tables_at a n locs noes tabs ->
  holds a (jxs a 0 - 1) (counted energy xs) -> holds a (jxs a 2 - 1) (nums locs ++ nums noes) ->
  exists d, make_cedc a u = Ok d /\ ce_in d = energy /\ ce_nmu d = n /\ ce_unit d = u /\ Forall2 (decodes n) tabs (ce_tables d).
Proof. exact cedc_read. Qed.
Print Assumptions C99_continuous.

(** the inelastic part: the cross section of the file, and the distribution its mode NXS(7) announces *)
Theorem C99_inelastic : forall a u energy xs t, u32 (sizeZ energy) -> length xs = length energy -> make_tab1 LinLin energy xs = Ok t -> holds a (jxs a 0 - 1) (counted energy xs) ->
  (forall d, (nxs a 6 = 0 \/ nxs a 6 = 1)%Z -> make_dce a = Ok d -> make_inin a u = Ok (mkInin t (AeDiscrete d))) /\
  (forall d, (nxs a 6 = 2)%Z -> make_cedc a u = Ok d -> make_inin a u = Ok (mkInin t (AeContinuous d))) /\
  ((nxs a 6 < 0 \/ 2 < nxs a 6)%Z -> make_inin a u = Throw).
Proof. exact inin_read. Qed.
Print Assumptions C99_inelastic.

(** the whole law: its parts, which elastic part is present, and the identity of the table *)
Theorem C99_law : forall a u ii c i, make_inin a u = Ok ii -> make_coh a = Ok c -> make_inco a = Ok i ->
  exists t, make_tsl a u = Ok t /\ t_inel t = ii /\ t_coh t = c /\ t_inc t = i /\ t_zaid t = a_zaid a /\ t_awr t = a_awr a /\ t_temp t = a_temperature a /\
    (t_has_coh t = true <-> jxs a 3 <> 0 /\ nxs a 4 = 4)%Z /\ (t_has_inc t = true <-> jxs a 3 <> 0 /\ nxs a 4 <> 4)%Z.
Proof.
  intros a u ii c i E1 E2 E3. unfold make_tsl. rewrite E1. cbn [bind]. rewrite E2, E3. cbn [bind].
  destruct (Z.eqb_spec (jxs a 3) 0); cbn [negb]; [|destruct (Z.eqb_spec (nxs a 4) 4)]; eexists; (split; [reflexivity|]); cbn; repeat split; intros; try discriminate; try tauto.
Qed.
Print Assumptions C99_law.

(** ** the hypotheses are met *)
Definition th_ace (nx jx : list Z) (x : list R) : ace R := mkAce 0 1 1 false nx jx x.
Lemma th_holds nx jx (x pre b post : list R) i : x = pre ++ b ++ post -> sizeZ pre = i -> holds (th_ace nx jx x) i b.
Proof. intros H S. exists pre, post. split; assumption. Qed.
Lemma inc2 (x y : R) : x <= y -> increasing [x; y].
Proof. intros H. apply is_sorted_increasing. cbn. rnum. destruct (Rltb_spec y x); [lra|reflexivity]. Qed.

Ltac fall := repeat (apply Forall_cons || apply Forall_nil || split); cbn; try reflexivity; try lra; repeat (apply Forall_cons || apply Forall_nil || split); cbn; lra.

Example C99_coherent_applies : exists a, make_coh a = Ok (mkCoh [1; 2] [3; 5]).
Proof.
  exists (th_ace [0; 0; 0; 0; 4]%Z [0; 0; 0; 1]%Z (counted [1; 2] [3; 5])). apply (C99_coherent _ [1; 2] [3; 5]); try reflexivity; try discriminate; try (unfold u32, sizeZ; cbn; lia).
  - apply (th_holds _ _ _ [] _ []); [rewrite app_nil_r; reflexivity|reflexivity].
  - apply inc2; lra.
  - unfold getR. cbn. lra.
Qed.
Example C99_discrete_applies : exists a, make_dce a = Ok (mkDCE [1; 2] [[(1, [0])]; [(3, [1])]] 1 1 false).
Proof.
  exists (th_ace [0; 0; 0; 1; 0; 0; 0]%Z [1; 0; 6]%Z (counted [1; 2] [0; 0] ++ lines_block [[(1, [0])]; [(3, [1])]])).
  apply (C99_discrete _ [1; 2] [0; 0] [[(1, [0])]; [(3, [1])]] 1 1 false); try reflexivity; try discriminate; try (unfold u32, sizeZ; cbn; lia).
  - apply inc2; lra.
  - fall.
  - apply (th_holds _ _ _ [] _ (lines_block [[(1, [0])]; [(3, [1])]])); reflexivity.
  - apply (th_holds _ _ _ (counted [1; 2] [0; 0]) _ []); [rewrite app_nil_r; reflexivity|reflexivity].
Qed.
(** two incident energies sharing a table whose first cumulated probability is positive: the point at zero energy is added *)
Example C99_continuous_applies : exists a d t, make_cedc a true = Ok d /\ ce_in d = [1; 2] /\ ce_tables d = [t; t] /\ ct_energy t = [0; 1; 2] /\ ct_pdf t = [0; 1; 1] /\ ct_cdf t = [0; / 2; 1] /\
  ct_cos t = [[-1 + (INR 0 + 1 / 2) * (2 / 1)]; [0]; [1]].
Proof.
  pose (es := [mkEntry 1 1 (/ 2) [0]; mkEntry 2 1 1 [1]]). pose (a := th_ace [0; 0; 2; 0; 0; 0; 2]%Z [1; 0; 6]%Z (counted [1; 2] [0; 0] ++ (nums [9; 9] ++ nums [2; 2])%Z ++ entries_block es)).
  assert (TA : table_at a 1 9 2 es).
  { split; [unfold u32; lia|]. split; [unfold u32; lia|]. split; [reflexivity|]. split.
    - constructor; [discriminate|apply inc2; cbn; lra|fall|apply inc2; cbn; lra|fall|fall].
    - apply (th_holds _ _ _ (counted [1; 2] [0; 0] ++ (nums [9; 9] ++ nums [2; 2])%Z) _ []); [rewrite app_nil_r, <- app_assoc; reflexivity|reflexivity]. }
  destruct (C99_continuous a true [1; 2] [0; 0] [9; 9]%Z [2; 2]%Z [es; es] 1) as (d & E & D1 & D2 & D3 & D4); try reflexivity; try (unfold u32, sizeZ; cbn; lia).
  - apply inc2; lra.
  - repeat (constructor; try assumption).
  - apply (th_holds _ _ _ [] _ ((nums [9; 9] ++ nums [2; 2])%Z ++ entries_block es)); reflexivity.
  - apply (th_holds _ _ _ (counted [1; 2] [0; 0]) _ (entries_block es)); reflexivity.
  - assert (K : forall t, decodes 1 es t -> t = mkCT [0; 1; 2] [0; 1; 1] [0; / 2; 1] [[-1 + (INR 0 + 1 / 2) * (2 / 1)]; [0]; [1]]).
    { intros [te tp tc tm] (es' & F & T1 & T2 & T3 & T4). unfold es in F. inversion F as [|? e1 ? l1 (A1 & A2 & A3 & A4 & _) F1]; subst. inversion F1 as [|? e2 ? l2 (B1 & B2 & B3 & B4 & _) F2]; subst. inversion F2; subst.
      cbn [en_E en_pdf en_cdf en_mu ct_energy ct_pdf ct_cdf ct_cos] in *. apply Permutation_length_1_inv in A4, B4. rewrite Rmax_right in A2, B2 by lra.
      unfold completed in *. cbn [first_cdf] in *. rewrite A3 in T1, T2, T3, T4. destruct (Rlt_dec 0 (/ 2)) as [_|]; [|exfalso; lra]. cbn [map zero_entry en_E en_pdf en_cdf en_mu] in *.
      rewrite A1, B1 in T1. rewrite A2, B2 in T2. rewrite A3, B3 in T3. rewrite A4, B4 in T4. subst. reflexivity. }
    inversion D4 as [|? t1 ? ? K1 D5]; subst. inversion D5 as [|? t2 ? ? K2 D6]; subst. inversion D6; subst. pose proof (K _ K1). pose proof (K _ K2). subst t1 t2. exists a, d. eexists. split; [exact E|]. split; [auto|]. split; [symmetry; eassumption|]. cbn. repeat split; reflexivity.
Qed.
