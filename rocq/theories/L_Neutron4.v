(** * The fission cross section of an object; decoding of a probability table block; example files *)
From Verif Require Import Base NumR L_Search L_SearchR M_Interp M_Tab1D M_Func M_Grid M_Packet M_PC M_Spectra M_Ace M_Neutron S_Grid S_Neutron L_PC L_Grid L_Xs L_Neutron L_Ace L_Neutron2 L_Urr L_Neutron3.
From Coq Require Import ZifyBool ZifyNat.
Local Open Scope R_scope.

Section Neutron.
  Variable load : ace R -> Z -> Z -> R -> R -> bool -> res (aelaw R).
  Variable absorb : Z -> aelaw R.
  Variable load_delayed : ace R -> Z -> res (elaw R).
  Variable load_elastic : ace R -> res (adist R).
  Notation make_neutron := (make_neutron load absorb load_delayed load_elastic).

  Lemma fission_of_parts NB a n : make_neutron NB a = Ok n -> a_fissile a = true -> compute_fission_xs true (n_fission n) (n_grid n) = Ok (n_fission_xs n).
  Proof.
    intros H F. destruct (neutron_parts _ _ _ _ _ _ _ H) as (g & xs & mts & idx & rs & f & Eg & Ex & El & Ef & En).
    destruct (finish_fields _ _ _ _ _ _ _ _ _ _ _ En) as (F1 & F2 & F3 & F4 & F5 & F6 & F7). rewrite F4, F5, <- F. exact F7.
  Qed.
  Lemma chances_slots f r : In r (chances f) -> exists mt, slot (fis_slots f) mt = Some r.
  Proof.
    clear. unfold chances. cbn [map concat]. rewrite !in_app_iff. unfold slot, fis_slots, get_slot. cbn.
    intros [H|[H|[H|[H|[]]]]].
    - destruct (f19 f) as [q|]; [destruct H as [<-|[]]|destruct H]. exists 19%Z. reflexivity.
    - destruct (f20 f) as [q|]; [destruct H as [<-|[]]|destruct H]. exists 20%Z. reflexivity.
    - destruct (f21 f) as [q|]; [destruct H as [<-|[]]|destruct H]. exists 21%Z. reflexivity.
    - destruct (f38 f) as [q|]; [destruct H as [<-|[]]|destruct H]. exists 38%Z. reflexivity.
  Qed.
  Lemma slot_reaction (n : neutron R) mt r : is_fission_mt mt = true -> fission_slot (n_fission n) mt = Some r -> neutron_has n mt = Ok true /\ neutron_reaction n mt = Ok r.
  Proof.
    clear. intros F S. unfold neutron_has, neutron_reaction, get_reaction, has_reaction. rewrite F. unfold fission_reaction, fission_has. rewrite S. cbn. auto.
  Qed.
  Lemma slot_none (n : neutron R) mt : is_fission_mt mt = true -> fission_slot (n_fission n) mt = None -> neutron_has n mt = Ok false.
  Proof. clear. intros F S. unfold neutron_has, has_reaction. rewrite F. unfold fission_has. rewrite S. reflexivity. Qed.
  (** MT 18 given: it is the fission cross section *)
  Lemma fission_mt18 NB a n r : make_neutron NB a = Ok n -> a_fissile a = true -> neutron_reaction n 18 = Ok r -> n_fission_xs n = rx_xs r.
  Proof.
    intros H F E. pose proof (fission_of_parts NB a n H F) as C. unfold compute_fission_xs in C. cbn [negb] in C.
    assert (S : f18 (n_fission n) = Some r).
    { destruct (fission_slot (n_fission n) 18) as [q|] eqn:S.
      - destruct (slot_reaction n 18 q eq_refl S) as [_ E']. rewrite E in E'. injection E' as <-. exact S.
      - pose proof (slot_none n 18 eq_refl S) as E'. unfold neutron_reaction, get_reaction, neutron_has in *. rewrite E' in E. discriminate. }
    rewrite S in C. injection C as <-. reflexivity.
  Qed.
  Definition of_slot (val : reaction R -> R) (o : option (reaction R)) : R := match o with Some r => val r | None => 0 end.
  Lemma sum_chances val f : sum_of val (chances f) = of_slot val (f19 f) + of_slot val (f20 f) + of_slot val (f21 f) + of_slot val (f38 f).
  Proof. clear. unfold chances, sum_of, of_slot. destruct (f19 f), (f20 f), (f21 f), (f38 f); cbn; lra. Qed.
  (** MT 18 not given: the sum of the chances *)
  Lemma chance_of_slot n val mt ev : is_fission_mt mt = true -> (forall r, fission_slot (n_fission n) mt = Some r -> ev (rx_xs r) = Ok (val r)) ->
    chance_value n mt ev (of_slot val (fission_slot (n_fission n) mt)).
  Proof.
    clear. intros F H. destruct (fission_slot (n_fission n) mt) as [r|] eqn:S; cbn.
    - left. exists r. split; [apply (slot_reaction n mt r F S)|auto].
    - right. split; [apply slot_none; assumption|reflexivity].
  Qed.
  Lemma chances_in f mt r : (mt = 19 \/ mt = 20 \/ mt = 21 \/ mt = 38)%Z -> fission_slot f mt = Some r -> In r (chances f).
  Proof. clear. intros H S. unfold chances. cbn [map concat]. rewrite !in_app_iff. destruct H as [H|[H|[H|H]]]; subst mt; cbn in S; rewrite S; cbn; tauto. Qed.
  Lemma fission_sum_points NB a n i : fits a -> bins_ok NB -> make_neutron NB a = Ok n -> a_fissile a = true -> neutron_has n 18 = Ok false -> (0 <= i < sizeZ (g_vals (n_grid n)))%Z ->
    exists v19 v20 v21 v38, chance_value n 19 (fun x => xs_at x i) v19 /\ chance_value n 20 (fun x => xs_at x i) v20 /\ chance_value n 21 (fun x => xs_at x i) v21 /\ chance_value n 38 (fun x => xs_at x i) v38 /\
      xs_at (n_fission_xs n) i = Ok (v19 + v20 + v21 + v38).
  Proof.
    intros F B H FS N18 Hi. pose proof (neutron_is_good _ _ _ _ _ _ _ F B H) as [G _ _ _ _ _ _ _ NS].
    assert (C : forall r, In r (chances (n_fission n)) -> good (n_grid n) (rx_xs r)). { intros r I. destruct (chances_slots _ _ I) as (mt & S). apply (NS _ _ S). }
    assert (S18 : f18 (n_fission n) = None).
    { destruct (f18 (n_fission n)) as [r|] eqn:S; [|reflexivity]. destruct (slot_reaction n 18 r eq_refl S) as [X _]. rewrite X in N18. discriminate. }
    destruct (fission_points _ _ _ G S18 C (fission_of_parts NB a n H FS)) as [GX P].
    set (val := fun r => point (rx_xs r) i).
    assert (CV : forall mt, (mt = 19 \/ mt = 20 \/ mt = 21 \/ mt = 38)%Z -> chance_value n mt (fun x => @xs_at R NumR x i) (of_slot val (fission_slot (n_fission n) mt))).
    { intros mt M. apply chance_of_slot; [unfold is_fission_mt; lia|]. intros r S. apply (xs_at_good (n_grid n)); [|exact Hi]. apply C. apply (chances_in _ mt); assumption. }
    exists (of_slot val (f19 (n_fission n))), (of_slot val (f20 (n_fission n))), (of_slot val (f21 (n_fission n))), (of_slot val (f38 (n_fission n))).
    split; [apply (CV 19%Z); lia|]. split; [apply (CV 20%Z); lia|]. split; [apply (CV 21%Z); lia|]. split; [apply (CV 38%Z); lia|].
    rewrite (xs_at_good (n_grid n) _ i GX Hi). f_equal. rewrite <- sum_chances. exact (P i Hi).
  Qed.
  Lemma fission_sum_eval NB a n E i : fits a -> bins_ok NB -> make_neutron NB a = Ok n -> a_fissile a = true -> neutron_has n 18 = Ok false -> (0 <= i < sizeZ (g_vals (n_grid n)))%Z ->
    (forall mt r v, (mt = 19 \/ mt = 20 \/ mt = 21 \/ mt = 38)%Z -> neutron_reaction n mt = Ok r -> x_index (rx_xs r) = (i + 1)%Z -> xs_at (rx_xs r) (i + 1) = Ok v -> v = 0) ->
    exists v19 v20 v21 v38, chance_value n 19 (fun x => xs_eval_i x E i) v19 /\ chance_value n 20 (fun x => xs_eval_i x E i) v20 /\ chance_value n 21 (fun x => xs_eval_i x E i) v21 /\ chance_value n 38 (fun x => xs_eval_i x E i) v38 /\
      xs_eval_i (n_fission_xs n) E i = Ok (v19 + v20 + v21 + v38).
  Proof.
    intros F B H FS N18 Hi HZ. pose proof (neutron_is_good _ _ _ _ _ _ _ F B H) as [G _ _ _ _ _ _ _ NS].
    assert (C : forall r, In r (chances (n_fission n)) -> good (n_grid n) (rx_xs r)). { intros r I. destruct (chances_slots _ _ I) as (mt & S). apply (NS _ _ S). }
    assert (S18 : f18 (n_fission n) = None).
    { destruct (f18 (n_fission n)) as [r|] eqn:S; [|reflexivity]. destruct (slot_reaction n 18 r eq_refl S) as [X _]. rewrite X in N18. discriminate. }
    assert (IM : forall r, In r (chances (n_fission n)) -> exists mt, (mt = 19 \/ mt = 20 \/ mt = 21 \/ mt = 38)%Z /\ fission_slot (n_fission n) mt = Some r).
    { clear. intros r. unfold chances. cbn [map concat]. rewrite !in_app_iff. intros [I|[I|[I|[I|[]]]]].
      - exists 19%Z. split; [lia|]. cbn. destruct (f19 (n_fission n)) as [q|]; [destruct I as [<-|[]]; reflexivity|destruct I].
      - exists 20%Z. split; [lia|]. cbn. destruct (f20 (n_fission n)) as [q|]; [destruct I as [<-|[]]; reflexivity|destruct I].
      - exists 21%Z. split; [lia|]. cbn. destruct (f21 (n_fission n)) as [q|]; [destruct I as [<-|[]]; reflexivity|destruct I].
      - exists 38%Z. split; [lia|]. cbn. destruct (f38 (n_fission n)) as [q|]; [destruct I as [<-|[]]; reflexivity|destruct I]. }
    destruct (fission_eval _ _ _ E i G S18 C (fission_of_parts NB a n H FS) Hi) as (val & V & X).
    { intros r I J. destruct (IM r I) as (mt & M & S). destruct (slot_reaction n mt r ltac:(unfold is_fission_mt; lia) S) as [_ R].
      apply (HZ mt r _ M R J). assert (J2 : (0 <= i + 1 < sizeZ (g_vals (n_grid n)))%Z). { destruct (C r I) as [[[_ _ I0 _] Xg] _]. rewrite Xg, J in I0. lia. }
      exact (xs_at_good (n_grid n) _ _ (C r I) J2). }
    assert (CV : forall mt, (mt = 19 \/ mt = 20 \/ mt = 21 \/ mt = 38)%Z -> chance_value n mt (fun x => @xs_eval_i R NumR x E i) (of_slot val (fission_slot (n_fission n) mt))).
    { intros mt M. apply chance_of_slot; [unfold is_fission_mt; lia|]. intros r S. apply V. apply (chances_in _ mt); assumption. }
    exists (of_slot val (f19 (n_fission n))), (of_slot val (f20 (n_fission n))), (of_slot val (f21 (n_fission n))), (of_slot val (f38 (n_fission n))).
    split; [apply (CV 19%Z); lia|]. split; [apply (CV 20%Z); lia|]. split; [apply (CV 21%Z); lia|]. split; [apply (CV 38%Z); lia|].
    rewrite <- sum_chances. exact X.
  Qed.
End Neutron.

(** ** probability table blocks *)
Section Table.
  Variable a : ace R.
  Lemma holds_column l : forall i, holds a i l -> column a i (sizeZ l) = Ok l.
  Proof.
    unfold column, sizeZ. rewrite Nat2Z.id. induction l as [|x l IH]; intros i H; [reflexivity|]. cbn [length]. rewrite zseq_cons. cbn [mapR]. apply holds_cons in H as [H1 H2].
    rewrite H1. cbn [bind]. rewrite IH by exact H2. reflexivity.
  Qed.
  Lemma holds_column_nonneg l : forall i, nonneg l -> holds a i l -> column_nonneg a i (sizeZ l) = Ok l.
  Proof.
    unfold column_nonneg, sizeZ. rewrite Nat2Z.id. induction l as [|x l IH]; intros i P H; [reflexivity|]. cbn [length]. rewrite zseq_cons. cbn [mapR]. apply holds_cons in H as [H1 H2].
    rewrite H1. cbn [bind]. change (@nltb R NumR) with Rltb. change (@nofZ R NumR 0) with 0. replace (Rltb x 0) with false by (symmetry; apply Rltb_false; apply P; left; reflexivity).
    cbn [bind]. rewrite IH; [reflexivity| |exact H2]. intros v V. apply P. right. exact V.
  Qed.
  Lemma holds_column_negative l : forall i, ~ nonneg l -> holds a i l -> column_nonneg a i (sizeZ l) = Throw.
  Proof.
    unfold column_nonneg, sizeZ. rewrite Nat2Z.id. induction l as [|x l IH]; intros i P H; [exfalso; apply P; intros v []|]. cbn [length]. rewrite zseq_cons. cbn [mapR]. apply holds_cons in H as [H1 H2].
    rewrite H1. cbn [bind]. change (@nltb R NumR) with Rltb. change (@nofZ R NumR 0) with 0. destruct (Rltb_spec x 0) as [L|L]; [reflexivity|]. cbn [bind]. rewrite IH; [reflexivity| |exact H2].
    intros Q. apply P. intros v [<-|V]; [exact L|apply Q, V].
  Qed.
  Lemma col_nn l i m : m = sizeZ l -> nonneg l -> holds a i l -> column_nonneg a i m = Ok l.
  Proof. intros ->. apply holds_column_nonneg. Qed.
  Lemma col_any l i m : m = sizeZ l -> holds a i l -> column a i m = Ok l.
  Proof. intros ->. apply holds_column. Qed.
  Lemma read_ptable_block i cdf t e f c h : length t = length cdf -> length e = length cdf -> length f = length cdf -> length c = length cdf -> length h = length cdf ->
    increasing cdf -> 0 < getR cdf 0 -> Rabs (1 - getR cdf (sizeZ cdf - 1)) < / 1000000000000000 -> nonneg t -> nonneg e -> nonneg f -> nonneg c ->
    holds a i (ptable_block cdf t e f c h) ->
    exists p, read_ptable a i (sizeZ cdf) = Ok p /\ pt_bands p = zip_bands t e f c h /\ sizeZ (pt_cdf p) = sizeZ cdf /\ getR (pt_cdf p) (sizeZ cdf - 1) = 1 /\
      forall k, (0 <= k < sizeZ cdf - 1)%Z -> getR (pt_cdf p) k = getR cdf k.
  Proof.
    intros L1 L2 L3 L4 L5 SI P0 PB N1 N2 N3 N4 H. unfold ptable_block in H. apply holds_app in H as [H0 H]. apply holds_app in H as [H1 H]. apply holds_app in H as [H2 H].
    apply holds_app in H as [H3 H]. apply holds_app in H as [H4 H5].
    assert (S1 : sizeZ t = sizeZ cdf) by (unfold sizeZ; lia). assert (S2 : sizeZ e = sizeZ cdf) by (unfold sizeZ; lia). assert (S3 : sizeZ f = sizeZ cdf) by (unfold sizeZ; lia).
    assert (S4 : sizeZ c = sizeZ cdf) by (unfold sizeZ; lia). assert (S5 : sizeZ h = sizeZ cdf) by (unfold sizeZ; lia).
    assert (S0 : (0 < sizeZ cdf)%Z). { destruct cdf; [unfold getR in P0; cbn in P0; lra|rewrite sizeZ_cons; pose proof (sizeZ_nonneg cdf); lia]. }
    unfold read_ptable. rewrite (holds_column _ _ H0). cbn [bind]. rewrite (proj2 (is_sorted_increasing cdf) SI). cbn [guard bind]. rewrite frontR_R, backR_R by lia. cbn [bind].
    change (@nleb R NumR) with Rleb. change (@nofZ R NumR 0) with 0. replace (Rleb (getR cdf 0) 0) with false by (symmetry; apply Rleb_false; lra).
    replace (nltb _ _) with true.
    2:{ symmetry. change (@nltb R NumR) with Rltb. apply Rltb_true. change (@nabs R NumR) with Rabs. change (@nsub R NumR) with Rminus. unfold nlit. change (@ndiv R NumR) with Rdiv.
        change (@nofZ R NumR 1) with 1. change (@nofZ R NumR 1000000000000000) with 1000000000000000. lra. }
    destruct (setZ_ok cdf (sizeZ cdf - 1) 1 ltac:(lia)) as (w & Ew & W1 & W2 & W3). change (@nofZ R NumR 1) with 1. rewrite Ew. cbn [bind].
    rewrite (col_nn t _ (sizeZ cdf)) by (assumption || lia). cbn [bind].
    replace (i + 2 * sizeZ cdf)%Z with (i + sizeZ cdf + sizeZ t)%Z by lia. rewrite (col_nn e _ (sizeZ cdf)) by (assumption || lia). cbn [bind].
    replace (i + 3 * sizeZ cdf)%Z with (i + sizeZ cdf + sizeZ t + sizeZ e)%Z by lia. rewrite (col_nn f _ (sizeZ cdf)) by (assumption || lia). cbn [bind].
    replace (i + 4 * sizeZ cdf)%Z with (i + sizeZ cdf + sizeZ t + sizeZ e + sizeZ f)%Z by lia. rewrite (col_nn c _ (sizeZ cdf)) by (assumption || lia). cbn [bind].
    replace (i + 5 * sizeZ cdf)%Z with (i + sizeZ cdf + sizeZ t + sizeZ e + sizeZ f + sizeZ c)%Z by lia. rewrite (col_any h _ (sizeZ cdf)) by (assumption || lia). cbn [bind].
    eexists. split; [reflexivity|]. cbn. split; [reflexivity|]. split; [exact W1|]. split.
    - rewrite atR in W2 by lia. injection W2 as W2. exact W2.
    - intros k K. assert (X := W3 k ltac:(lia)). rewrite !atR in X by lia. injection X as X. exact X.
  Qed.
End Table.
