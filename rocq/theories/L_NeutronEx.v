(** * Example ACE contents for the neutron theorems *)
From Verif Require Import Base NumR L_Search L_SearchR M_Interp M_Tab1D M_Func M_Grid M_Packet M_PC M_Spectra M_Ace M_Neutron S_Grid S_Neutron L_PC L_Grid L_Xs L_Neutron L_Ace L_Neutron2 L_Urr L_Neutron3 L_Neutron4.
From Coq Require Import ZifyBool ZifyNat.
Local Open Scope R_scope.

Lemma xs_all a i g h vals : xss_vec a i (wrap32 (nxs a 2)) = Ok vals -> sizeZ vals = sizeZ (g_vals g) -> (sizeZ (g_vals g) < 2 ^ 32)%Z -> (h = false -> nonneg vals) ->
  xs_of_ace a i g h = Ok (mkXs g vals 0 false).
Proof.
  intros E S B N. unfold xs_of_ace. rewrite E. cbn [bind]. unfold make_xs_ace. change (wrap32 (1 - 1)) with 0%Z. pose proof (sizeZ_nonneg (g_vals g)). rewrite wrap64_id by lia.
  replace (negb (sizeZ (g_vals g) - 0 =? sizeZ vals)%Z) with false by lia. destruct h; [reflexivity|]. cbn [negb andb].
  rewrite (proj2 (any_negative_R vals) (N eq_refl)). reflexivity.
Qed.
Lemma u32_at (a : ace R) i z : xss a i = Ok (IZR z) -> u32 z -> xss_u32 a i = Ok z.
Proof. intros E U. unfold xss_u32. rewrite E. apply trunc_u32_IZR. exact U. Qed.
Lemma i32_at (a : ace R) i z : xss a i = Ok (IZR z) -> (- 2 ^ 31 <= z < 2 ^ 31)%Z -> xss_i32 a i = Ok z.
Proof. intros E U. unfold xss_i32. rewrite E. apply trunc_i32_IZR. exact U. Qed.
Lemma xs_part a i g i1 vals : xss_u32 a i = Ok (i1 + 1)%Z -> xss_u32 a (i + 1) = Ok (sizeZ vals) -> xss_vec a (i + 2) (sizeZ vals) = Ok vals -> (0 <= i1 <= sizeZ (g_vals g))%Z ->
  sizeZ vals = (sizeZ (g_vals g) - i1)%Z -> (sizeZ (g_vals g) < 2 ^ 32)%Z -> nonneg vals -> xs_of_ace_indexed a i g = Ok (mkXs g vals i1 false).
Proof.
  intros E1 E2 E3 B S B2 N. unfold xs_of_ace_indexed. rewrite E1, E2. cbn [bind]. rewrite E3. cbn [bind]. unfold make_xs_ace. replace (i1 + 1 - 1)%Z with i1 by lia. rewrite wrap32_id, wrap64_id by lia.
  replace (negb (sizeZ (g_vals g) - i1 =? sizeZ vals)%Z) with false by lia. cbn [negb andb]. rewrite (proj2 (any_negative_R vals) N). reflexivity.
Qed.
Ltac nn := let v := fresh in let V := fresh in intros v V; repeat (destruct V as [V|V]; [subst v; lra|]); destruct V.

(** a non-fissile nuclide: grid {1, 2}, MT 102 and a three-energy probability table with two bands *)
Definition ptab : list R := [/2; 1;  1; 2;  /2; 1;  0; 0;  /2; 1;  0; 0].
Definition ex_urr : list R := [3; 2; 2; 0; 0; 0; 1; 3/2; 2] ++ ptab ++ ptab ++ ptab.
Definition ex_main (mt : Z) : list R := [1; 2;  1; 3;  /2; /2;  /4; /4;  0; 0;  IZR mt;  0;  0;  1;  1; 2; /2; /2].
Definition ex_nxs : list Z := [0; 0; 2; 1; 0; 0; 0; 0; 0; 0; 0; 0; 0; 0; 0; 0]%Z.
Definition ex_jxs (lunr : Z) : list Z := [1; 0; 11; 12; 13; 14; 15; 10; 0; 0; 0; 0; 0; 0; 0; 0; 0; 0; 0; 0; 0; 0; lunr; 0; 0; 0; 0; 0; 0; 0; 0; 0]%Z.
Definition ex (mt : Z) : ace R := mkAce 1001%Z 1 300 false ex_nxs (ex_jxs 19) (ex_main mt ++ ex_urr).
Definition exg : list R := [1; 2].
Lemma exg_ok : grid_ok exg.
Proof.
  split; [cbn; lia|]. split; [|cbn; lra]. intros i j Hi0 Hij Hj. change (sizeZ exg) with 2%Z in Hj. unfold exg.
  assert (i = 0 \/ i = 1)%Z as [-> | ->] by lia; assert (j = 0 \/ j = 1)%Z as [-> | ->] by lia; try (exfalso; lia); change (getR [1; 2] 0) with 1; change (getR [1; 2] 1) with 2; lra.
Qed.
Lemma exg_strict : strictly_increasing exg.
Proof. intros i j Hi0 Hij Hj. change (sizeZ exg) with 2%Z in Hj. assert (i = 0)%Z by lia. assert (j = 1)%Z by lia. subst. change (getR exg 0) with 1; change (getR exg 1) with 2; lra. Qed.
Lemma ex_fits mt : fits (ex mt).
Proof. unfold fits. cbn. lia. Qed.
Lemma ex_grid mt : exists g, grid_of_ace (ex mt) 1 = Ok g /\ g_vals g = exg.
Proof.
  destruct (make_grid_ok exg 1 exg_ok ltac:(lia)) as (g & _ & E & K). exists g. split; [|destruct K; assumption].
  unfold grid_of_ace. change (xss_vec (ex mt) (ESZ (ex mt)) (nxs (ex mt) 2)) with (Ok exg). cbn [bind].
  change (jxs (ex mt) 22 =? 0)%Z with false. cbn match. change (xss (ex mt) (wrap32 (jxs (ex mt) 22 - 1 + 6))) with (@Ok R 1). cbn [bind]. exact E.
Qed.

Section Ex.
  Variable load : ace R -> Z -> Z -> R -> R -> bool -> res (aelaw R).
  Variable absorb : Z -> aelaw R.
  Variable load_delayed : ace R -> Z -> res (elaw R).
  Variable el : adist R.
  Notation make_neutron := (make_neutron load absorb load_delayed (fun _ => Ok el)).
  Lemma ex_main_xs mt g : g_vals g = exg -> read_main_xs (ex mt) g = Ok (mkXs g [1; 3] 0 false, mkXs g [/2; /2] 0 false, mkXs g [/4; /4] 0 false, mkXs g [0; 0] 0 false, mkXs g [0] 0 true).
  Proof.
    clear. intros H. assert (S : sizeZ (g_vals g) = 2%Z) by (rewrite H; reflexivity). unfold read_main_xs.
    rewrite (xs_all _ _ g false [1; 3]); [|reflexivity|rewrite S; reflexivity|lia|intros _; nn]. cbn [bind].
    rewrite (xs_all _ _ g false [/2; /2]); [|reflexivity|rewrite S; reflexivity|lia|intros _; nn]. cbn [bind].
    rewrite (xs_all _ _ g false [/4; /4]); [|reflexivity|rewrite S; reflexivity|lia|intros _; nn]. cbn [bind].
    rewrite (xs_all _ _ g true [0; 0]); [|reflexivity|rewrite S; reflexivity|lia|discriminate]. cbn [bind].
    change (jxs (ex mt) 11 =? 0)%Z with true. cbn match. unfold make_xs_single. change (@nltb R NumR) with Rltb. change (@nofZ R NumR 0) with 0.
    replace (Rltb 0 0) with false by (symmetry; apply Rltb_false; lra). reflexivity.
  Qed.
  Lemma ex_reaction_xs mt g : g_vals g = exg -> read_reaction_xs (ex mt) 0 g = Ok (mkXs g [/2; /2] 0 false, 1).
  Proof.
    clear. intros H. assert (S : sizeZ (g_vals g) = 2%Z) by (rewrite H; reflexivity). unfold read_reaction_xs.
    rewrite (u32_at _ _ 1) by (reflexivity || (unfold u32; lia)). cbn [bind].
    rewrite (xs_part (ex mt) _ g 0 [/2; /2]); [|apply u32_at; [reflexivity|unfold u32; lia]|apply u32_at; [reflexivity|unfold u32; cbn; lia]|reflexivity|lia|rewrite S; reflexivity|lia|nn].
    cbn [bind]. unfold xs_energy. cbn [x_grid x_index]. rewrite H. reflexivity.
  Qed.
  Lemma ex_reaction mt g : u32 mt -> g_vals g = exg -> make_reaction load absorb (ex mt) 0 g = Ok (mkReac mt 0 1 1 (FConst 0) (absorb mt) (mkXs g [/2; /2] 0 false)).
  Proof.
    intros U H. unfold make_reaction. rewrite (u32_at _ _ mt) by (reflexivity || exact U). cbn [bind].
    change (xss (ex mt) (LQR (ex mt) + 0)) with (@Ok R 0). change (xss (ex mt) (TYR (ex mt) + 0)) with (@Ok R 0). cbn [bind].
    unfold read_yield. change (@nabs R NumR 0) with (Rabs 0). rewrite Rabs_R0. change (@nltb R NumR) with Rltb. change (@neqb R NumR) with Reqb. change (@nofZ R NumR 0) with 0. change (@nofZ R NumR 100) with 100.
    replace (Rltb 0 100) with true by (symmetry; apply Rltb_true; lra). replace (Reqb 0 0) with true by (symmetry; apply Reqb_true; reflexivity). cbn [bind negb].
    rewrite ex_reaction_xs by exact H. reflexivity.
  Qed.

  Lemma ex_ptable a i : holds a i ptab -> exists p, read_ptable a i 2 = Ok p.
  Proof.
    clear. intros H.
    assert (I : increasing [/2; 1]).
    { intros j k H0 H1 H2. change (sizeZ [/2; 1]) with 2%Z in H2. assert (j = 0 \/ j = 1)%Z as [-> | ->] by lia; assert (k = 0 \/ k = 1)%Z as [-> | ->] by lia; try (exfalso; lia);
      change (getR [/2; 1] 0) with (/2); change (getR [/2; 1] 1) with 1; lra. }
    assert (P : 0 < getR [/2; 1] 0) by (change (getR [/2; 1] 0) with (/2); lra).
    assert (L : Rabs (1 - getR [/2; 1] (sizeZ [/2; 1] - 1)) < / 1000000000000000).
    { change (getR [/2; 1] (sizeZ [/2; 1] - 1)) with 1. unfold Rminus. rewrite Rplus_opp_r, Rabs_R0. lra. }
    destruct (read_ptable_block a i [/2; 1] [1; 2] [/2; 1] [0; 0] [/2; 1] [0; 0] eq_refl eq_refl eq_refl eq_refl eq_refl I P L) as (p & E & _); try nn; [exact H|exists p; exact E].
  Qed.
  Lemma ex_urr_ok mt el' ca fi he rs : exists u, make_urr (ex mt) el' ca fi he rs = Ok u /\ u_energy u = [1; 3/2; 2] /\ u_loglog u = false /\ u_factors u = false /\ u_inelastic u = None /\ u_absorption u = None.
  Proof.
    clear. unfold make_urr. change (jxs (ex mt) 22 =? 0)%Z with false. cbn match.
    rewrite (u32_at _ _ 3) by (reflexivity || (unfold u32; lia)). cbn [bind]. rewrite (u32_at _ _ 2) by (reflexivity || (unfold u32; lia)). cbn [bind].
    rewrite (u32_at _ _ 2) by (reflexivity || (unfold u32; lia)). cbn [bind]. rewrite (i32_at _ _ 0) by (reflexivity || lia). cbn [bind].
    rewrite (i32_at _ _ 0) by (reflexivity || lia). cbn [bind]. rewrite (i32_at _ _ 0) by (reflexivity || lia). cbn [bind].
    change (xss_vec (ex mt) (LUNR (ex mt) + 6) 3) with (Ok [1; 3/2; 2]). cbn [bind]. change (Z.to_nat 3) with 3%nat. change (LUNR (ex mt) + 6 + 3)%Z with 27%Z. cbn [read_ptables].
    destruct (ex_ptable (ex mt) 27) as (p1 & E1). { exists (ex_main mt ++ [3; 2; 2; 0; 0; 0; 1; 3/2; 2]), (ptab ++ ptab). split; reflexivity. }
    destruct (ex_ptable (ex mt) 39) as (p2 & E2). { exists (ex_main mt ++ [3; 2; 2; 0; 0; 0; 1; 3/2; 2] ++ ptab), ptab. split; reflexivity. }
    destruct (ex_ptable (ex mt) 51) as (p3 & E3). { exists (ex_main mt ++ [3; 2; 2; 0; 0; 0; 1; 3/2; 2] ++ ptab ++ ptab), []. split; reflexivity. }
    rewrite E1. cbn [bind]. change (27 + 6 * 2)%Z with 39%Z. rewrite E2. cbn [bind]. change (39 + 6 * 2)%Z with 51%Z. rewrite E3. cbn [bind].
    change ((2 =? 2) || (2 =? 5))%Z%bool with true. cbn [bind]. unfold competition. change (0 <? 0)%Z with false. cbn [bind]. eexists. split; [reflexivity|]. auto.
  Qed.
  Lemma ex_neutron : exists n r, make_neutron 1 (ex 102) = Ok n /\ g_vals (n_grid n) = exg /\ n_total n = mkXs (n_grid n) [1; 3] 0 false /\ n_disappearance n = mkXs (n_grid n) [/2; /2] 0 false /\
    n_elastic_xs n = mkXs (n_grid n) [/4; /4] 0 false /\ n_mts n = [102%Z] /\ u_energy (n_urr n) = [1; 3/2; 2] /\ u_loglog (n_urr n) = false /\ n_heating n = mkXs (n_grid n) [0; 0] 0 false /\
    n_fission_xs n = mkXs (n_grid n) [0] 0 true /\ neutron_has n 102 = Ok true /\ neutron_reaction n 102 = Ok r /\ rx_xs r = mkXs (n_grid n) [/2; /2] 0 false /\
    (forall k, (0 <= k < 892)%Z -> k <> 102%Z -> atZ (n_indices n) k = Ok (-1)%Z) /\ atZ (n_indices n) 102 = Ok 0%Z /\ n_reactions n = [r] /\ n_fissile n = false.
  Proof.
    destruct (ex_grid 102) as (g & Eg & V). unfold M_Neutron.make_neutron. rewrite Eg. cbn [bind]. rewrite (ex_main_xs 102 g V). cbn [bind].
    change (nmt (ex 102)) with 1%nat. cbn [reaction_loop]. rewrite (u32_at _ _ 102) by (reflexivity || (unfold u32; lia)). cbn [bind]. change (is_fission_mt 102) with false. cbn match.
    rewrite ex_reaction by (assumption || (unfold u32; lia)). cbn [bind]. change (sizeZ (@nil (reaction R))) with 0%Z.
    destruct (setZ_ok no_indices 102 0%Z ltac:(unfold no_indices, sizeZ; rewrite repeat_length; lia)) as (w & Ew & W1 & W2 & W3). rewrite Ew. cbn [bind app].
    unfold make_fission, make_nus. change (a_fissile (ex 102)) with false. cbn [bind]. unfold finish. cbn [f_mts app]. unfold compute_fission_xs. cbn [negb]. unfold make_xs_single.
    change (@nltb R NumR) with Rltb. change (@nofZ R NumR 0) with 0. replace (Rltb 0 0) with false by (symmetry; apply Rltb_false; lra). cbn [bind].
    unfold get_reaction, has_reaction. change (is_fission_mt 102) with false. change (891 <? 102)%Z with false. cbn match. rewrite W2. cbn [bind]. change (negb (0 <? 0)%Z) with true. cbn match. cbn [bind negb].
    change (atZ [?r] 0) with (Ok r). cbn [bind].
    match goal with |- context [make_urr (ex 102) ?a ?b ?c ?d ?e] => destruct (ex_urr_ok 102 a b c d e) as (u & Eu & U1 & U2 & _) end. rewrite Eu. cbn [bind].
    eexists _, _. split; [reflexivity|]. unfold neutron_has, neutron_reaction, get_reaction, has_reaction. change (is_fission_mt 102) with false. change (891 <? 102)%Z with false. cbn match.
    cbn [n_grid n_total n_disappearance n_elastic_xs n_mts n_urr n_heating n_fission_xs n_indices n_fission n_reactions n_fissile]. rewrite W2. cbn [bind]. change (negb (0 <? 0)%Z) with true. cbn match. cbn [bind negb].
    repeat (split; [first [reflexivity|assumption]|]). split; [|split; [reflexivity|split; reflexivity]].
    intros k K K2. rewrite W3 by exact K2. unfold no_indices. rewrite (atZ_nth (-1)%Z) by (unfold sizeZ; rewrite repeat_length; lia). f_equal. apply nth_repeat.
  Qed.
  (** below the first grid energy the evaluation extrapolates: a negative total *)
  Lemma ex_negative_total n : make_neutron 1 (ex 102) = Ok n -> exists p, neutron_xs n (/4) = Ok p /\ total p < 0.
  Proof.
    intros H. destruct ex_neutron as (n' & r & E & V & X1 & X2 & X3 & _ & _ & _ & X4 & X5 & X6 & X7 & X8 & _). rewrite H in E. injection E as <-.
    pose proof (neutron_is_good _ _ _ _ 1 _ n (ex_fits 102) ltac:(split; lia) H) as [G (NB & [B1 B2] & K) _ _ _ _ _ _ _].
    unfold neutron_xs. destruct (get_lower_index_spec _ NB (n_grid n) G B1 B2 K (/4)) as (i & Ei & Br). rewrite Ei. cbn [bind].
    assert (i = 0%Z). { rewrite V in Br. unfold brackets in Br. change (getR exg 0) with 1 in Br. destruct Br as [[_ ?]|[[? _]|[[? _] _]]]; [assumption|lra|lra]. } subst i.
    unfold neutron_xs_i. rewrite X1, X2, X3, X4, X5, X6, X7. cbn [bind]. rewrite X8. unfold xs_eval_i. cbn [x_single x_grid x_index x_vals]. rewrite V.
    change (0 <? 0)%Z with false. change (wrap64 (0 + sizeZ [1; 3] - 1) <=? 0)%Z with false. change (wrap64 (0 + sizeZ [/2; /2] - 1) <=? 0)%Z with false. change (wrap64 (0 + sizeZ [/4; /4] - 1) <=? 0)%Z with false.
    change (wrap64 (0 + sizeZ [0; 0] - 1) <=? 0)%Z with false. cbn match. cbn. change (@nltb R NumR) with Rltb. replace (Rltb (/4) 1) with true by (symmetry; apply Rltb_true; lra). cbn [bind].
    eexists. split; [reflexivity|]. cbn. unfold lin. rnum. lra.
  Qed.
  (** an MT beyond the array *)
  Lemma ex_mt900 : make_neutron 1 (ex 900) = UB.
  Proof.
    destruct (ex_grid 900) as (g & Eg & V). unfold M_Neutron.make_neutron. rewrite Eg. cbn [bind]. rewrite (ex_main_xs 900 g V). cbn [bind].
    change (nmt (ex 900)) with 1%nat. cbn [reaction_loop]. rewrite (u32_at _ _ 900) by (reflexivity || (unfold u32; lia)). cbn [bind]. change (is_fission_mt 900) with false. cbn match.
    rewrite ex_reaction by (assumption || (unfold u32; lia)). cbn [bind]. unfold setZ. replace (sizeZ no_indices) with 892%Z by (unfold sizeZ, no_indices; rewrite repeat_length; reflexivity). reflexivity.
  Qed.
  (** a second file with an MT the first lacks *)
  Lemma ex_from_missing n : make_neutron 1 (ex 102) = Ok n -> make_neutron_from absorb 1 (ex 103) n = UB.
  Proof.
    intros H. destruct ex_neutron as (n' & r & E & _ & _ & _ & _ & _ & _ & _ & _ & _ & _ & _ & _ & I & _). rewrite H in E. injection E as <-.
    destruct (ex_grid 103) as (g & Eg & V). unfold make_neutron_from. rewrite Eg. cbn [bind]. rewrite (ex_main_xs 103 g V). cbn [bind].
    change (nmt (ex 103)) with 1%nat. cbn [reaction_loop]. rewrite (u32_at _ _ 103) by (reflexivity || (unfold u32; lia)). cbn [bind]. change (is_fission_mt 103) with false. cbn match.
    rewrite I by lia. reflexivity.
  Qed.
  Lemma ex_from n : make_neutron 1 (ex 102) = Ok n -> exists n2, make_neutron_from absorb 1 (ex 102) n = Ok n2.
  Proof.
    intros H. destruct ex_neutron as (n' & r & E & _ & _ & _ & _ & _ & _ & _ & _ & _ & _ & _ & _ & _ & I1 & I2 & I3). rewrite H in E. injection E as <-.
    destruct (ex_grid 102) as (g & Eg & V). unfold make_neutron_from. rewrite Eg. cbn [bind]. rewrite (ex_main_xs 102 g V). cbn [bind].
    change (nmt (ex 102)) with 1%nat. cbn [reaction_loop]. rewrite (u32_at _ _ 102) by (reflexivity || (unfold u32; lia)). cbn [bind]. change (is_fission_mt 102) with false. cbn match.
    rewrite I1. cbn [bind]. rewrite I2. change (atZ [r] 0) with (Ok r). cbn [bind]. unfold make_reaction_from. rewrite Z.eqb_refl. cbn [bind]. rewrite ex_reaction_xs by exact V. cbn [bind fst snd].
    change (sizeZ (@nil (reaction R))) with 0%Z.
    destruct (setZ_ok no_indices 102 0%Z ltac:(unfold no_indices, sizeZ; rewrite repeat_length; lia)) as (w & Ew & W1 & W2 & W3). rewrite Ew. cbn [bind app].
    unfold make_fission_from. change (a_fissile (ex 102)) with false. cbn [bind]. unfold finish. cbn [f_mts app]. unfold compute_fission_xs. rewrite I3. cbn [negb]. unfold make_xs_single.
    change (@nltb R NumR) with Rltb. change (@nofZ R NumR 0) with 0. replace (Rltb 0 0) with false by (symmetry; apply Rltb_false; lra). cbn [bind].
    unfold get_reaction, has_reaction. change (is_fission_mt 102) with false. change (891 <? 102)%Z with false. cbn match. rewrite W2. cbn [bind]. change (negb (0 <? 0)%Z) with true. cbn match. cbn [bind negb].
    change (atZ [?r] 0) with (Ok r). cbn [bind].
    match goal with |- context [make_urr (ex 102) ?a ?b ?c ?d ?e] => destruct (ex_urr_ok 102 a b c d e) as (u & Eu & U1 & U2 & _) end. rewrite Eu. cbn [bind].
    eexists. reflexivity.
  Qed.
  Lemma ex_no_mt0 k : (0 <= k < Z.of_nat (nmt (ex 102)))%Z -> ~ mtr_entry (ex 102) k 0.
  Proof.
    clear. change (Z.of_nat (nmt (ex 102))) with 1%Z. intros K M. assert (k = 0%Z) by lia. subst k. unfold mtr_entry in M. rewrite (u32_at _ _ 102) in M by (reflexivity || (unfold u32; lia)). discriminate.
  Qed.
End Ex.

(** a table with exactly two incident energies *)
Definition ex2 : ace R := mkAce 1001%Z 1 300 false ex_nxs (ex_jxs 19) (ex_main 102 ++ [2; 2; 2; 0; 0; 0; 1; 2] ++ ptab ++ ptab).
Lemma ex2_urr el ca fi he rs : exists u, make_urr ex2 el ca fi he rs = Ok u /\ u_energy u = [1; 2].
Proof.
  unfold make_urr. change (jxs ex2 22 =? 0)%Z with false. cbn match.
  rewrite (u32_at _ _ 2) by (reflexivity || (unfold u32; lia)). cbn [bind]. rewrite (u32_at _ _ 2) by (reflexivity || (unfold u32; lia)). cbn [bind].
  rewrite (u32_at _ _ 2) by (reflexivity || (unfold u32; lia)). cbn [bind]. rewrite (i32_at _ _ 0) by (reflexivity || lia). cbn [bind].
  rewrite (i32_at _ _ 0) by (reflexivity || lia). cbn [bind]. rewrite (i32_at _ _ 0) by (reflexivity || lia). cbn [bind].
  change (xss_vec ex2 (LUNR ex2 + 6) 2) with (Ok [1; 2]). cbn [bind]. change (Z.to_nat 2) with 2%nat. change (LUNR ex2 + 6 + 2)%Z with 26%Z. cbn [read_ptables].
  destruct (ex_ptable ex2 26) as (p1 & E1). { exists (ex_main 102 ++ [2; 2; 2; 0; 0; 0; 1; 2]), ptab. split; reflexivity. }
  destruct (ex_ptable ex2 38) as (p2 & E2). { exists (ex_main 102 ++ [2; 2; 2; 0; 0; 0; 1; 2] ++ ptab), []. split; reflexivity. }
  rewrite E1. cbn [bind]. change (26 + 6 * 2)%Z with 38%Z. rewrite E2. cbn [bind].
  change ((2 =? 2) || (2 =? 5))%Z%bool with true. cbn [bind]. unfold competition. change (0 <? 0)%Z with false. cbn [bind]. eexists. split; reflexivity.
Qed.

(** multiplicity examples *)
Definition nu_jxs (nu dnu : Z) : list Z := [1; nu; 0; 0; 0; 0; 0; 0; 0; 0; 0; 0; 0; 0; 0; 0; 0; 0; 0; 0; 0; 0; 0; dnu; 0; 0; 0; 0; 0; 0; 0; 0]%Z.
Definition const_block (c : R) : list R := poly_block [c].
Lemma const_nu c : nu_block (FPoly [c]) (const_block c).
Proof. apply nb_poly. unfold u32. cbn. lia. Qed.
Lemma const_eval c E : @feval R NumR (FPoly [c]) E = Ok c.
Proof. cbn. rnum. f_equal. ring. Qed.
(** prompt 2 and total 3 in the NU block, delayed 2 *)
Definition nu3 : ace R := mkAce 92235%Z 233 300 true ex_nxs (nu_jxs 1 8) (([-3] ++ const_block 2 ++ const_block 3) ++ const_block 2).
Lemma nu3_nus : make_nus nu3 = Ok (mkNus (FPoly [3]) (FPoly [2]) (FPoly [2])).
Proof.
  apply (nus_all nu3 (FPoly [2]) (const_block 2) (FPoly [3]) (const_block 3) (FPoly [2]) (const_block 2)); try apply const_nu; try reflexivity; try (cbn; lia).
  - exists [], (const_block 2). split; [|reflexivity]. cbn. rewrite <- opp_IZR. reflexivity.
  - exists ([-3] ++ const_block 2 ++ const_block 3), []. split; reflexivity.
Qed.
(** the delayed block at the very start of XSS *)
Definition nu1 : ace R := mkAce 92235%Z 233 300 true ex_nxs (nu_jxs 4 1) (const_block 1 ++ const_block 2).
Lemma nu1_nus : make_nus nu1 = Ok (mkNus (FConst 0) (FPoly [2]) (FConst 0)).
Proof.
  unfold make_nus. change (a_fissile nu1) with true. unfold read_nu_blocks. change (0 <? jxs nu1 1)%Z with true. change (xss nu1 (NU nu1)) with (@Ok R 1). cbn [bind].
  change (@nltb R NumR) with Rltb. change (@nofZ R NumR 0) with 0. replace (Rltb 0 1) with true by (symmetry; apply Rltb_true; lra). change (0 <? jxs nu1 23)%Z with true. change (0 <? DNU nu1)%Z with false.
  rewrite (read_nu_block nu1 _ (FPoly [2]) (const_block 2)); [reflexivity|apply const_nu|]. exists (const_block 1), []. split; reflexivity.
Qed.
(** a delayed block only *)
Definition nu0 : ace R := mkAce 92235%Z 233 300 true ex_nxs (nu_jxs 0 2) ([0] ++ const_block 1).
Lemma nu0_nus : make_nus nu0 = Ok (mkNus (FPoly [1]) (FPoly [1]) (FPoly [1])).
Proof.
  unfold make_nus. change (a_fissile nu0) with true. unfold read_nu_blocks. change (0 <? jxs nu0 1)%Z with false. cbn [bind]. change (0 <? DNU nu0)%Z with true.
  rewrite (read_nu_block nu0 _ (FPoly [1]) (const_block 1)); [reflexivity|apply const_nu|]. exists [0], []. split; reflexivity.
Qed.
(** the usual layouts *)
Definition nua : ace R := mkAce 92235%Z 233 300 true ex_nxs (nu_jxs 1 4) (const_block 2 ++ const_block 1).
Lemma nua_ok : nu_block (FPoly [2]) (const_block 2) /\ holds nua (NU nua) (const_block 2) /\ nu_block (FPoly [1]) (const_block 1) /\ holds nua (DNU nua) (const_block 1) /\ (0 < jxs nua 1)%Z /\ (1 < jxs nua 23)%Z /\ a_fissile nua = true.
Proof.
  split; [apply const_nu|]. split; [exists [], (const_block 1); split; reflexivity|]. split; [apply const_nu|]. split; [exists (const_block 2), []; split; reflexivity|]. cbn. split; [lia|]. split; [lia|reflexivity].
Qed.

(** a fissile nuclide given by its four chances; the last one starts at the second grid point *)
Definition exf_nxs : list Z := [0; 0; 2; 4; 0; 0; 0; 0; 0; 0; 0; 0; 0; 0; 0; 0]%Z.
Definition exf_jxs : list Z := [1; 34; 11; 15; 19; 23; 27; 0; 0; 0; 0; 0; 0; 0; 0; 0; 0; 0; 0; 0; 0; 0; 0; 0; 0; 0; 0; 0; 0; 0; 0; 0]%Z.
Definition exf : ace R := mkAce 92235%Z 1 300 true exf_nxs exf_jxs
  [1; 2;  5; 5;  0; 0;  1; 1;  0; 0;  19; 20; 21; 38;  0; 0; 0; 0;  0; 0; 0; 0;  1; 1; 1; 5;  1; 2; 1; 1;  2; 1; 1;  1; 1; 3].
Lemma exf_fits : fits exf.
Proof. unfold fits. cbn. lia. Qed.
Lemma exf_grid : exists g, grid_of_ace exf 1 = Ok g /\ g_vals g = exg.
Proof.
  destruct (make_grid_ok exg 1 exg_ok ltac:(lia)) as (g & _ & E & K). exists g. split; [|destruct K; assumption].
  unfold grid_of_ace. change (xss_vec exf (ESZ exf) (nxs exf 2)) with (Ok exg). cbn [bind]. change (jxs exf 22 =? 0)%Z with true. cbn match. cbn [bind]. exact E.
Qed.
Section Exf.
  Variable load : ace R -> Z -> Z -> R -> R -> bool -> res (aelaw R).
  Variable absorb : Z -> aelaw R.
  Variable load_delayed : ace R -> Z -> res (elaw R).
  Variable el : adist R.
  Notation make_neutron := (make_neutron load absorb load_delayed (fun _ => Ok el)).
  Lemma exf_main_xs g : g_vals g = exg -> read_main_xs exf g = Ok (mkXs g [5; 5] 0 false, mkXs g [0; 0] 0 false, mkXs g [1; 1] 0 false, mkXs g [0; 0] 0 false, mkXs g [0] 0 true).
  Proof.
    clear. intros H. assert (S : sizeZ (g_vals g) = 2%Z) by (rewrite H; reflexivity). unfold read_main_xs.
    rewrite (xs_all _ _ g false [5; 5]); [|reflexivity|rewrite S; reflexivity|lia|intros _; nn]. cbn [bind].
    rewrite (xs_all _ _ g false [0; 0]); [|reflexivity|rewrite S; reflexivity|lia|intros _; nn]. cbn [bind].
    rewrite (xs_all _ _ g false [1; 1]); [|reflexivity|rewrite S; reflexivity|lia|intros _; nn]. cbn [bind].
    rewrite (xs_all _ _ g true [0; 0]); [|reflexivity|rewrite S; reflexivity|lia|discriminate]. cbn [bind].
    change (jxs exf 11 =? 0)%Z with true. cbn match. unfold make_xs_single. change (@nltb R NumR) with Rltb. change (@nofZ R NumR 0) with 0.
    replace (Rltb 0 0) with false by (symmetry; apply Rltb_false; lra). reflexivity.
  Qed.
  Definition rf (g : egrid R) (mt : Z) : reaction R :=
    mkReac mt 0 1 (if (mt =? 38)%Z then 2 else 1) (FConst 0) (absorb mt) (if (mt =? 38)%Z then mkXs g [1] 1 false else mkXs g [1; 1] 0 false).
  Lemma exf_reaction g k mt : g_vals g = exg -> (k, mt) = (0, 19)%Z \/ (k, mt) = (1, 20)%Z \/ (k, mt) = (2, 21)%Z \/ (k, mt) = (3, 38)%Z -> make_reaction load absorb exf k g = Ok (rf g mt).
  Proof.
    intros H K. assert (S : sizeZ (g_vals g) = 2%Z) by (rewrite H; reflexivity). unfold make_reaction.
    destruct K as [K|[K|[K|K]]]; injection K as -> ->;
    (erewrite u32_at by (reflexivity || (unfold u32; lia)); cbn [bind];
    match goal with |- context [xss exf (LQR exf + ?k)] => change (xss exf (LQR exf + k)) with (@Ok R 0); change (xss exf (TYR exf + k)) with (@Ok R 0) end; cbn [bind];
    unfold read_yield; change (@nabs R NumR 0) with (Rabs 0); rewrite Rabs_R0; change (@nltb R NumR) with Rltb; change (@neqb R NumR) with Reqb; change (@nofZ R NumR 0) with 0; change (@nofZ R NumR 100) with 100;
    replace (Rltb 0 100) with true by (symmetry; apply Rltb_true; lra); replace (Reqb 0 0) with true by (symmetry; apply Reqb_true; reflexivity); cbn [bind negb]; unfold read_reaction_xs).
    1,2,3: (rewrite (u32_at _ _ 1) by (reflexivity || (unfold u32; lia)); cbn [bind];
      rewrite (xs_part exf _ g 0 [1; 1]); [|apply u32_at; [reflexivity|unfold u32; lia]|apply u32_at; [reflexivity|unfold u32; cbn; lia]|reflexivity|lia|rewrite S; reflexivity|lia|nn];
      cbn [bind]; unfold xs_energy; cbn [x_grid x_index]; rewrite H; reflexivity).
    rewrite (u32_at _ _ 5) by (reflexivity || (unfold u32; lia)); cbn [bind].
    rewrite (xs_part exf _ g 1 [1]); [|apply u32_at; [reflexivity|unfold u32; lia]|apply u32_at; [reflexivity|unfold u32; cbn; lia]|reflexivity|lia|rewrite S; reflexivity|lia|nn].
    cbn [bind]. unfold xs_energy. cbn [x_grid x_index]. rewrite H. reflexivity.
  Qed.
  Lemma exf_neutron : exists n, make_neutron 1 exf = Ok n /\ g_vals (n_grid n) = exg /\ neutron_has n 18 = Ok false /\ n_fission_xs n = mkXs (n_grid n) [3; 4] 0 false /\
    forall mt, (mt = 19 \/ mt = 20 \/ mt = 21 \/ mt = 38)%Z -> neutron_reaction n mt = Ok (rf (n_grid n) mt).
  Proof.
    destruct exf_grid as (g & Eg & V). unfold M_Neutron.make_neutron. rewrite Eg. cbn [bind]. rewrite (exf_main_xs g V). cbn [bind].
    assert (M0 : xss_u32 exf (MTR exf + 0) = Ok 19%Z) by (apply u32_at; [reflexivity|unfold u32; lia]).
    assert (M1 : xss_u32 exf (MTR exf + (0 + 1)) = Ok 20%Z) by (apply u32_at; [reflexivity|unfold u32; lia]).
    assert (M2 : xss_u32 exf (MTR exf + (0 + 1 + 1)) = Ok 21%Z) by (apply u32_at; [reflexivity|unfold u32; lia]).
    assert (M3 : xss_u32 exf (MTR exf + (0 + 1 + 1 + 1)) = Ok 38%Z) by (apply u32_at; [reflexivity|unfold u32; lia]).
    change (nmt exf) with 4%nat. cbn [reaction_loop]. rewrite M0. cbn [bind]. change (is_fission_mt 19) with true. cbn match. rewrite M1. cbn [bind]. change (is_fission_mt 20) with true. cbn match.
    rewrite M2. cbn [bind]. change (is_fission_mt 21) with true. cbn match. rewrite M3. cbn [bind]. change (is_fission_mt 38) with true. cbn match. cbn [bind].
    unfold make_fission. rewrite (nus_single exf (FPoly [3]) (const_block 3)); [|reflexivity|cbn; lia|cbn; lia|apply const_nu|]. 2:{ exists (firstn 33 (a_xss exf)), []. split; reflexivity. }
    change (a_fissile exf) with true. cbn [bind]. change (make_families load_delayed exf) with (@Ok (list (family R)) []). cbn [bind]. change (nmt exf) with 4%nat. cbn [fission_loop].
    rewrite M0. cbn [bind]. change (is_fission_mt 19) with true. cbn match. rewrite (exf_reaction g 0 19 V) by tauto. cbn [bind].
    rewrite M1. cbn [bind]. change (is_fission_mt 20) with true. cbn match. rewrite (exf_reaction g (0 + 1) 20 V) by tauto. cbn [bind].
    rewrite M2. cbn [bind]. change (is_fission_mt 21) with true. cbn match. rewrite (exf_reaction g (0 + 1 + 1) 21 V) by tauto. cbn [bind].
    rewrite M3. cbn [bind]. change (is_fission_mt 38) with true. cbn match. rewrite (exf_reaction g (0 + 1 + 1 + 1) 38 V) by tauto. cbn [bind].
    cbn [set_slot no_slots Z.eqb Pos.eqb s18 s19 s20 s21 s38 s_mts]. unfold prompt_spectrum. cbn [s18 s19 s20 s21 s38 option_map make_sumfis bind].
    unfold finish. unfold compute_fission_xs. cbn [negb f18 f19 f20 f21 f38]. rewrite V. change (sizeZ exg) with 2%Z. cbn [lowest rf rx_xs Z.eqb Pos.eqb x_index Z.ltb Z.compare Pos.compare Pos.compare_cont].
    change (zseq 0 (Z.to_nat (2 - 0))) with [0; 1]%Z. cbn [mapR]. unfold fission_sum_at. cbn [f19 f20 f21 f38 add_at rf rx_xs Z.eqb Pos.eqb].
    assert (A0 : @xs_at R NumR (mkXs g [1; 1] 0 false) 0 = Ok 1) by reflexivity. assert (A1 : @xs_at R NumR (mkXs g [1; 1] 0 false) 1 = Ok 1) by reflexivity.
    assert (B0 : @xs_at R NumR (mkXs g [1] 1 false) 0 = Ok 0) by reflexivity. assert (B1 : @xs_at R NumR (mkXs g [1] 1 false) 1 = Ok 1) by reflexivity.
    rewrite A0, A1, B0, B1. cbn [bind]. change (@nadd R NumR) with Rplus. change (@nofZ R NumR 0) with 0. replace (0 + 1 + 1 + 1 + 0) with 3 by lra. replace (0 + 1 + 1 + 1 + 1) with 4 by lra.
    assert (MX : @make_xs R NumR [3; 4] g 0 = Ok (mkXs g [3; 4] 0 false)).
    { unfold make_xs. change (wrap32 0) with 0%Z. rewrite V. change (sizeZ exg) with 2%Z. cbn match. rewrite (proj2 (any_negative_R [3; 4])) by nn. reflexivity. }
    rewrite MX. cbn [bind]. unfold has_reaction at 1. change (is_fission_mt 102) with false. change (891 <? 102)%Z with false. cbn match.
    rewrite (atZ_nth (-1)%Z no_indices 102) by (unfold sizeZ, no_indices; rewrite repeat_length; lia). unfold no_indices at 1. rewrite nth_repeat. cbn [bind]. change (negb (-1 <? 0)%Z) with false. cbn match. unfold make_xs_single.
    change (@nltb R NumR) with Rltb. change (@nofZ R NumR 0) with 0. replace (Rltb 0 0) with false by (symmetry; apply Rltb_false; lra). cbn [bind].
    unfold make_urr. change (jxs exf 22 =? 0)%Z with true. cbn match. cbn [bind]. eexists. split; [reflexivity|]. cbn [n_grid n_fission_xs]. split; [exact V|]. split; [reflexivity|]. split; [reflexivity|].
    intros mt M. destruct M as [M|[M|[M|M]]]; subst mt; reflexivity.
  Qed.
  Lemma exf_between n : make_neutron 1 exf = Ok n -> exists s, (forall mt, (mt = 19 \/ mt = 20 \/ mt = 21)%Z -> exists r, neutron_reaction n mt = Ok r /\ xs_eval_i (rx_xs r) (3/2) 0 = Ok 1) /\
    (exists r, neutron_reaction n 38 = Ok r /\ xs_eval_i (rx_xs r) (3/2) 0 = Ok 0) /\ xs_eval_i (n_fission_xs n) (3/2) 0 = Ok s /\ s <> 1 + 1 + 1 + 0.
  Proof.
    intros H. destruct exf_neutron as (n' & E & V & _ & FX & RX). rewrite H in E. injection E as <-. eexists. split; [|split; [|split]].
    - intros mt M. exists (rf (n_grid n) mt). split; [apply RX; tauto|]. assert (X : rx_xs (rf (n_grid n) mt) = mkXs (n_grid n) [1; 1] 0 false) by (destruct M as [M|[M|M]]; subst mt; reflexivity). rewrite X.
      unfold xs_eval_i. cbn [x_single x_grid x_index x_vals]. rewrite V. cbn. change (Pos.to_nat 1) with 1%nat. cbn. unfold lin. rnum. f_equal. ring.
    - exists (rf (n_grid n) 38). split; [apply RX; tauto|]. reflexivity.
    - rewrite FX. unfold xs_eval_i. cbn [x_single x_grid x_index x_vals]. rewrite V. cbn. change (Pos.to_nat 1) with 1%nat. cbn. reflexivity.
    - unfold lin. rnum. replace (2 - 1) with 1 by lra. lra.
  Qed.
End Exf.
