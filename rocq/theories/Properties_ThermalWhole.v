(** * C106: a thermal scattering file whose contents are meaningful is loaded, and its user is answered at every energy *)
From Coq Require Import Reals Lra Lia List ZifyBool ZifyNat.
From Verif Require Import Base NumR L_Search L_SearchR M_Interp M_PC S_PC M_OutE S_OutE M_Ace M_Thermal S_Thermal L_ThermalEx S_Neutron L_Ace S_ThermalFile L_ThermalFile S_ThermalWhole L_ThermalWhole.
Import ListNotations.
Local Open Scope R_scope.

(** the law is constructed, under the identity of the table; it has the elastic part the file has *)
Theorem C106_law_loads : forall a u f, written a f -> meaningful f -> exists t, make_tsl a u = Ok t /\
  t_zaid t = a_zaid a /\ t_awr t = a_awr a /\ t_temp t = a_temperature a /\ tsl_max_energy t = Ok (getR (th_energy f) (sizeZ (th_energy f) - 1)) /\
  (t_has_coh t = true <-> exists edges sums, th_elastic f = Coherent edges sums) /\ (t_has_inc t = true <-> exists energy xs rows, th_elastic f = Incoherent energy xs rows).
Proof. intros a u f W M. destruct (whole_law a u f W M) as (t & H). exists t. tauto. Qed.
(** its cross section at every energy: the tabulated inelastic one plus the elastic one, neither negative *)
Theorem C106_cross_section : forall a u f t E, written a f -> meaningful f -> make_tsl a u = Ok t ->
  exists s1 s2, lin_table (th_energy f) (th_xs f) E s1 /\ 0 <= s1 /\ elastic_xs (th_elastic f) E s2 /\ (0 < E -> 0 <= s2) /\ tsl_xs t E = Ok (s1 + s2).
Proof. intros a u f t E W M L. destruct (whole_law a u f W M) as (t' & L' & H). assert (t' = t) as -> by congruence. apply H. Qed.
(** an inelastic collision, at every energy and for all random numbers: a cosine in [-1,1] and an outgoing energy that is not negative
    (without unit-base interpolation, from half of the first tabulated energy up) *)
Theorem C106_inelastic_collision : forall a u f t E ds, written a f -> meaningful f -> make_tsl a u = Ok t -> draws 4 ds ->
  exists mu Eo rest, inin_sample (t_inel t) E ds = Ok ((mu, Eo), rest) /\ cosine mu /\
    ((exists skewed rows, th_inelastic f = Lines skewed rows) \/ u = true \/ getR (th_energy f) 0 <= 2 * E -> 0 <= Eo).
Proof. intros a u f t E ds W M L D. destruct (whole_law a u f W M) as (t' & L' & H). assert (t' = t) as -> by congruence. apply H. exact D. Qed.
(** an elastic collision, where the file has elastic data; where it has none both elastic parts refuse *)
Theorem C106_elastic_collision : forall a u f t E ds, written a f -> meaningful f -> make_tsl a u = Ok t -> 0 < E -> draws 2 ds ->
  match th_elastic f with
  | NoElastic => coh_sample (t_coh t) E ds = Throw /\ inco_sample (t_inc t) E ds = Throw
  | Coherent _ _ => exists mu Eo rest, coh_sample (t_coh t) E ds = Ok ((mu, Eo), rest) /\ elastic_outcome (th_elastic f) E mu Eo
  | Incoherent _ _ _ => exists mu Eo rest, inco_sample (t_inc t) E ds = Ok ((mu, Eo), rest) /\ elastic_outcome (th_elastic f) E mu Eo
  end.
Proof. intros a u f t E ds W M L P D. destruct (whole_law a u f W M) as (t' & L' & H). assert (t' = t) as -> by congruence. apply H; assumption. Qed.
Print Assumptions C106_law_loads.
Print Assumptions C106_cross_section.
Print Assumptions C106_inelastic_collision.
Print Assumptions C106_elastic_collision.

(** ** such files exist: continuous tables on a crystal; lines with incoherent elastic scattering *)
Definition tw_ace (nx jx : list Z) (x : list R) : ace R := mkAce 0 1 1 false nx jx x.
Lemma tw_holds nx jx (x pre b post : list R) i : x = pre ++ b ++ post -> sizeZ pre = i -> holds (tw_ace nx jx x) i b.
Proof. intros H S. exists pre, post. split; assumption. Qed.
Lemma two_grid (x y : R) : 0 < x -> x < y -> energy_grid [x; y].
Proof. intros P H. split; [change (2 <= 2)%Z; lia|]. split; [apply strict2, H|exact P]. Qed.
Ltac falls := repeat (apply Forall_cons || apply Forall_nil || split); unfold cosine; cbn; try reflexivity; try lra.
Definition tw_es : list entry := [mkEntry 0 1 0 [-(1/2); 1/2]; mkEntry 1 1 1 [-(1/2); 1/2]].
Definition tw_file1 : thermal := mkThermal [1; 2] [5; 6] (Tables [tw_es; tw_es]) (Coherent [1; 4] [3; 5]).
Example C106_crystal : exists a, written a tw_file1 /\ meaningful tw_file1.
Proof.
  set (b1 := counted [1; 2] [5; 6]). set (b2 := (nums [9; 9] ++ nums [2; 2])%Z). set (b3 := entries_block tw_es). set (b4 := counted [1; 4] [3; 5]).
  exists (tw_ace [0; 0; 3; 0; 4; 0; 2]%Z [1; 0; 6; 20]%Z (b1 ++ b2 ++ b3 ++ b4)). split; constructor; try reflexivity.
  - apply (tw_holds _ _ _ [] _ (b2 ++ b3 ++ b4)); reflexivity.
  - exists 2%Z, [9; 9]%Z, [2; 2]%Z. split; [reflexivity|]. split; [reflexivity|]. split; [lia|]. split; [cbn; lia|]. split.
    + assert (H3 : holds (tw_ace [0; 0; 3; 0; 4; 0; 2]%Z [1; 0; 6; 20]%Z (b1 ++ b2 ++ b3 ++ b4)) 9 (entries_block tw_es)) by (apply (tw_holds _ _ _ (b1 ++ b2) _ b4); [rewrite <- !app_assoc; reflexivity|reflexivity]).
      assert (F : Forall (fun e => sizeZ (en_mu e) = 2%Z) tw_es) by (repeat constructor).
      assert (U : u32 9 /\ u32 (sizeZ tw_es)) by (unfold u32; cbn; lia). destruct U as [U1 U2].
      apply (laid_cons _ 2 9 tw_es [9]%Z [2]%Z [tw_es] U1 U2 F H3), (laid_cons _ 2 9 tw_es []%Z []%Z [] U1 U2 F H3), laid_nil.
    + apply (tw_holds _ _ _ b1 _ (b3 ++ b4)); reflexivity.
  - split; [discriminate|]. split; [reflexivity|]. split; [unfold u32; cbn; lia|]. split; [reflexivity|]. apply (tw_holds _ _ _ (b1 ++ b2 ++ b3) _ []); [rewrite app_nil_r, <- !app_assoc; reflexivity|reflexivity].
  - apply two_grid; lra.
  - falls.
  - assert (P : proper_table tw_es).
    { split; [falls|]. split; [falls|]. split; [falls|]. split; [apply is_sorted_increasing, (sorted2 0 1); lra|]. cbv zeta. cbn [first_cdf tw_es map en_cdf en_E en_pdf]. destruct (Rlt_dec 0 0) as [|_]; [lra|]. exact (proj2 ct_ex_valid). }
    repeat (constructor; try exact P).
  - split; [discriminate|]. split; [apply is_sorted_increasing, (sorted2 1 4); lra|]. split; [cbn; lra|]. split; [apply is_sorted_increasing, (sorted2 3 5); lra|cbn; lra].
Qed.
Definition tw_file2 : thermal := mkThermal [1; 2] [0; 6] (Lines false [[(1, [0])]; [(3, [1])]]) (Incoherent [1; 3] [2; 0] [[-(1/2); 1/2]; [0; 1]]).
Example C106_lines : exists a, written a tw_file2 /\ meaningful tw_file2.
Proof.
  set (b1 := counted [1; 2] [0; 6]). set (b2 := lines_block [[(1, [0])]; [(3, [1])]]). set (b3 := counted [1; 3] [2; 0]). set (b4 := concat [[-(1/2); 1/2]; [0; 1]]).
  exists (tw_ace [0; 0; 0; 1; 0; 1; 0]%Z [1; 0; 6; 10; 0; 15]%Z (b1 ++ b2 ++ b3 ++ b4)). split; constructor; try reflexivity.
  - apply (tw_holds _ _ _ [] _ (b2 ++ b3 ++ b4)); reflexivity.
  - exists 1%Z, 1%Z. split; [reflexivity|]. split; [reflexivity|]. split; [lia|]. split; [reflexivity|]. split; [lia|]. split; [repeat (constructor; try reflexivity)|].
    apply (tw_holds _ _ _ b1 _ (b3 ++ b4)); reflexivity.
  - exists 2%Z. split; [discriminate|]. split; [discriminate|]. split; [unfold u32; cbn; lia|]. repeat (split; [reflexivity|]). split; [lia|]. split; [repeat (constructor; try reflexivity)|].
    split; [apply (tw_holds _ _ _ (b1 ++ b2) _ b4); [rewrite <- !app_assoc; reflexivity|reflexivity]|apply (tw_holds _ _ _ (b1 ++ b2 ++ b3) _ []); [rewrite app_nil_r, <- !app_assoc; reflexivity|reflexivity]].
  - apply two_grid; lra.
  - falls.
  - split; [falls|discriminate].
  - split; [apply two_grid; lra|]. split; [falls|]. constructor; [|constructor; [|constructor]]; (split; [apply is_sorted_increasing, sorted2; lra|falls]).
Qed.
