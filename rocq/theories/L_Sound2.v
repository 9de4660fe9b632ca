(** * Tables laid out in a file are sound *)
From Coq Require Import Reals Lra Lia List ZArith Bool ZifyBool ZifyNat.
From Verif Require Import Base NumR L_Search L_SearchR M_Interp M_Tab1D M_PC M_OutE M_Spectra M_Kin M_Ace M_Neutron M_Laws S_Tab1D S_Neutron S_Laws L_PC L_Angle L_Laws L_Laws3 L_LawsEx S_Sound L_Sound.
Import ListNotations.
Local Open Scope R_scope.

Notation any := (fun _ : R => True).
Lemma all_any (l : list R) : Forall any l. Proof. induction l; constructor; trivial. Qed.
Lemma unit_R x : unit_draw any x <-> 0 < x < 1.
Proof. unfold unit_draw. change (@nofZ R NumR 0) with 0. change (@nofZ R NumR 1) with 1. change (@nltb R NumR) with Rltb. rewrite !Rltb_true. tauto. Qed.
Lemma bins_R bounds b xi : make_bins bounds = Ok b -> unit_draw any xi -> exists mu : R, bins_sample b xi = Ok mu.
Proof. intros M X. apply unit_R in X. apply make_bins_spec in M as (-> & L & _). destruct (bins_safe bounds xi L ltac:(lra)) as (mu & E & _). eauto. Qed.
Lemma sound_R d E ds : sound_dist any d -> Forall (fun x => 0 < x < 1) ds -> returns_or_waits (ae_sample d E ds).
Proof.
  intros D F. apply (sound_sample any NumR_order I I bins_R d E ds D I). eapply Forall_impl; [|exact F]. intros x X. apply unit_R. exact X.
Qed.
Lemma sound_elastic_R e ad E ds : e_angle e = adist_sample ad -> e_brd e = svt_sample -> sound_adist any ad -> Forall (fun x => 0 < x < 1) ds -> returns_or_waits (elastic_sample e E ds).
Proof.
  intros EA EB A F. apply (sound_elastic any NumR_order I I bins_R e ad E ds EA EB A I). eapply Forall_impl; [|exact F]. intros x X. apply unit_R. exact X.
Qed.
(** the CDF starts at zero *)
Lemma first_zero v p c i (t : pctable R) c0 : make_pc v p c i = Ok t -> atZ c 0 = Ok c0 -> c0 = 0 -> sound_pc any t.
Proof.
  intros M E0 ->. split; [exists v, p, c, i; split; [exact M|apply all_any]|]. pose proof (make_pc_accepted _ _ _ _ _ M) as A.
  pose proof (ac_n _ _ _ _ _ A) as N1. pose proof (ac_n3 _ _ _ _ _ A) as N3. destruct (Z.eq_dec 0 (sizeZ v - 1)) as [Z0|Z0].
  - exfalso. unfold make_pc in M. apply bind_ok in M as (? & _ & M). apply bind_ok in M as (? & _ & M). apply bind_ok in M as (? & _ & M). apply bind_ok in M as (? & _ & M). apply bind_ok in M as (? & _ & M).
    apply bind_ok in M as (cc & Fx & _). unfold fix_last in Fx. rewrite (ac_n2 _ _ _ _ _ A), <- Z0, E0 in Fx. cbn [bind] in Fx. revert Fx. change (@nlit R NumR 1 10000000) with (1 / 10000000). rnum.
    destruct (Reqb_spec 0 1) as [X|X]; [lra|]. cbn [negb]. destruct (Rltb_spec (Rabs (0 - 1)) (1 / 10000000)) as [Y|Y]; [|discriminate]. rewrite Rabs_left in Y; lra.
  - exists 0. split; [rewrite (ac_same _ _ _ _ _ A); [exact E0|exact Z0]|]. split; [exact I|]. change (@nltb R NumR) with Rltb. change (@nofZ R NumR 0) with 0. apply Rltb_false. lra.
Qed.
Lemma pc_sound (t : pctable R) b : pc_layout t b -> atZ (pc_cdf t) 0 = Ok 0 -> sound_pc any t.
Proof.
  intros (i & v & p & c & _ & _ & _ & _ & _ & M) Z0. split; [exists v, p, c, i; split; [exact M|apply all_any]|]. exists 0. split; [exact Z0|]. split; [exact I|].
  change (@nltb R NumR) with Rltb. change (@nofZ R NumR 0) with 0. apply Rltb_false. lra.
Qed.
Lemma zero_first (c0 : R) {A} (k : res A) v : (if (c0 !=~ #0)%num then Throw else k) = Ok v -> c0 = 0 /\ k = Ok v.
Proof. rnum. destruct (Reqb_spec c0 0) as [E|E]; cbn [negb]; [auto|discriminate]. Qed.
Lemma kt_sound (t : kt R) b : kt_layout t b -> sound_kt any t.
Proof.
  intros (i & v & p & c & r & s & Hi & L1 & L2 & L3 & L4 & _ & _ & M). unfold make_kt in M. rewrite Hi in M. cbn [guard bind] in M. apply bind_ok in M as (? & _ & M).
  apply bind_ok in M as (? & G1 & M). apply bind_ok in M as (? & G2 & M). apply bind_ok in M as (c0 & E0 & M). apply zero_first in M as (Z0 & M). apply bind_ok in M as (c' & Fx & M). apply bind_ok in M as (? & G3 & M).
  injection M as <-. unfold sound_kt. cbn [k_energy k_pdf k_cdf k_interp k_R k_A].
  assert (PC : make_pc v p c i = Ok (mkPC v p c' i)).
  { unfold make_pc. rewrite Hi. cbn [guard bind]. rewrite (proj2 (Nat.eqb_eq (length v) (length p))) by lia. rewrite (proj2 (Nat.eqb_eq (length p) (length c))) by lia. cbn [andb guard bind].
    assert (NE : length v <> 0%nat) by (destruct c; [discriminate|cbn [length] in *; lia]). apply Nat.eqb_neq in NE. rewrite NE. cbn [negb guard bind]. rewrite G1. cbn [bind]. rewrite G2. cbn [bind]. rewrite Fx. cbn [bind]. rewrite G3. reflexivity. }
  split; [exact (first_zero v p c i _ c0 PC E0 Z0)|]. split; [apply all_any|]. split; [exact L3|]. split; [exact L4|]. trivial.
Qed.
Lemma eat_sound a JED (t : eat R) b : eat_layout a JED t b -> Forall (sound_pc any) (ea_angles t) -> sound_eat any t.
Proof.
  intros (i & v & p & c & locs & angles & Hi & L1 & L2 & L3 & _ & _ & _ & F2 & M) FA. unfold make_eat in M. rewrite Hi in M. cbn [guard bind] in M.
  apply bind_ok in M as (? & G1 & M). apply bind_ok in M as (? & G2 & M). apply bind_ok in M as (c0 & E0 & M). apply zero_first in M as (Z0 & M). apply bind_ok in M as (c' & Fx & M). apply bind_ok in M as (? & G3 & M).
  injection M as <-. unfold sound_eat. cbn [ea_energy ea_pdf ea_cdf ea_interp ea_angles] in *. apply Forall2_length in F2.
  assert (PC : make_pc v p c i = Ok (mkPC v p c' i)).
  { unfold make_pc. rewrite Hi. cbn [guard bind]. rewrite (proj2 (Nat.eqb_eq (length v) (length p))) by lia. rewrite (proj2 (Nat.eqb_eq (length p) (length c))) by lia. cbn [andb guard bind].
    assert (NE : length v <> 0%nat) by (destruct c; [discriminate|cbn [length] in *; lia]). apply Nat.eqb_neq in NE. rewrite NE. cbn [negb guard bind]. rewrite G1. cbn [bind]. rewrite G2. cbn [bind]. rewrite Fx. cbn [bind]. rewrite G3. reflexivity. }
  split; [exact (first_zero v p c i _ c0 PC E0 Z0)|]. split; [lia|exact FA].
Qed.
Lemma laid_out_all {A} a base (layout : A -> list R -> Prop) (Q : A -> Prop) locs ts : laid_out a base layout locs ts -> (forall t b, In t ts -> layout t b -> Q t) -> Forall Q ts.
Proof.
  intros L H. apply Forall_forall. intros t Ht. unfold laid_out in L. revert Ht H. induction L as [|l x ls xs (_ & _ & b & _ & Lb) L IH]; intros Ht H; [destruct Ht|]. destruct Ht as [<-|Ht].
  - exact (H x b (or_introl eq_refl) Lb).
  - apply IH; [exact Ht|]. intros t' b' Ht' Lt'. apply (H t' b'); [right; exact Ht'|exact Lt'].
Qed.
(** every Kalbach law of a file with two or more incident energies *)
Lemma kalbach_sound a locs ts energy d : laid_out a (DLW a) kt_layout locs ts -> make_kal energy ts = Ok d -> (2 <= sizeZ energy)%Z -> sound_law any (kal_law d).
Proof. intros L M S. apply (sl_kalbach _ energy ts); [exact M|exact S|apply all_any|]. eapply laid_out_all; [exact L|]. intros t b _. apply kt_sound. Qed.
(** every law 61 of a file with two or more incident energies whose angular CDFs start at zero *)
Lemma tabular_sound a locs ts energy d : laid_out a (DLW a) (eat_layout a (DLW a)) locs ts -> make_tea energy ts = Ok d -> (2 <= sizeZ energy)%Z -> Forall (fun t => Forall (sound_pc any) (ea_angles t)) ts -> sound_law any (tea_law d).
Proof.
  intros L M S F. apply (sl_tabular _ energy ts); [exact M|exact S|apply all_any|]. eapply laid_out_all; [exact L|]. intros t b Ht Lt. rewrite Forall_forall in F. exact (eat_sound a (DLW a) t b Lt (F t Ht)).
Qed.
Lemma reaction_sound a indx g mt q y laws r E ds : reaction_entries a indx mt q y -> y <> 0 -> reaction_laws a indx q laws -> reaction_of_ace a indx g = Ok r ->
  Forall (fun p => sound_law any (fst p) /\ sound_tab any (snd p)) laws -> Forall (fun x => 0 < x < 1) ds -> returns_or_waits (reaction_sample r E ds).
Proof.
  intros HE Y L H F U. destruct (reaction_dist_spec absorption_law a indx g mt q y laws r HE L H) as (d & C & D1 & D2).
  assert (SD : sound_dist any d).
  { destruct C as [(p & ->)|[L2 ->]]; [apply sd_law; apply Forall_inv in F; apply F|]. apply sd_mixture; [|exact F]. intros ->. cbn in L2. lia. }
  unfold reaction_sample. destruct (nltb E (rx_threshold r)); [exact I|]. destruct (Rtotal_order y 0) as [N|[N|N]]; [| contradiction|].
  - rewrite (D2 N). apply sound_R; [apply sd_cm, SD|exact U].
  - rewrite (D1 N). apply sound_R; [exact SD|exact U].
Qed.
Lemma half_sound t : tabulated [] [] [1; 2] [1/2; 1/2] = Ok t -> sound_tab any t.
Proof. intros H. exists [2%Z], [LinLin], [1; 2], [1/2; 1/2]. split; [split; [discriminate|cbn; lia]|]. split; [cbn; lia|]. split; [apply all_any|exact H]. Qed.
Lemma iso_sound : sound_adist any iso.
Proof. exists [/ 100000], [isotropic]. split; [reflexivity|]. split; [discriminate|]. split; [apply all_any|]. constructor; [apply sa_isotropic|constructor]. Qed.
Lemma exl_both y : exists t, reaction_laws (exl y 10) 0 (-1) [(uncor_law (mkUC iso (level_law (mkLevel 2 (1/2)))), t); (nbody_law (mkNB 3 4 2 (-1)), t)] /\ tabulated [] [] [1; 2] [1/2; 1/2] = Ok t.
Proof.
  destruct half_tab as [t Et]. exists t. split; [|exact Et].
  exists 0%Z, (Some iso), 1%Z. split; [hold 9%nat 10%nat|]. split; [lia|]. split; [apply ad_isotropic|]. split; [unfold u32; lia|]. split; [hold 10%nat 11%nat|].
  apply (ls_more _ _ _ 1 10 3 19 [] [] [1; 2] [1/2; 1/2] [2; 1/2]); try (unfold u32; cbn; lia); try exact reg0; try reflexivity; try exact Et.
  - hold 11%nat 20%nat.
  - hold 29%nat 31%nat.
  - apply exl_first.
  - apply (ls_last _ _ _ 10 66 21 [] [] [1; 2] [1/2; 1/2] [3; 4]); try (unfold u32; cbn; lia); try exact reg0; try reflexivity; try exact Et; [hold 20%nat 29%nat|hold 31%nat 33%nat|].
    apply (ll_nbody _ _ _ 3%Z 4 (mkNB 3 4 2 (-1))); [unfold u32; lia|]. unfold make_nbody. cbn. rdec. reflexivity.
Qed.
Lemma exl_sound y : exists laws, reaction_laws (exl y 10) 0 (-1) laws /\ length laws = 2%nat /\ Forall (fun p => sound_law any (fst p) /\ sound_tab any (snd p)) laws.
Proof.
  destruct (exl_both y) as (t & L & Et). eexists. split; [exact L|]. split; [reflexivity|].
  constructor; cbn [fst snd]; [split; [apply sl_uncorrelated; [exact iso_sound|apply se_level]|apply half_sound, Et]|]. constructor; [|constructor]. cbn [fst snd]. split; [apply sl_nbody|apply half_sound, Et].
Qed.
