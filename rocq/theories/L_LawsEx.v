(** * Example files for the theorems on secondary distributions *)
From Coq Require Import Reals Lra Lia List ZifyBool ZifyNat.
From Verif Require Import Base NumR L_Search L_SearchR M_Interp M_Tab1D L_Tab1DP M_Func M_Grid M_PC M_OutE M_Spectra M_Kin M_Ace M_Neutron M_Laws S_Neutron S_Laws L_Angle L_Laws L_Laws2 L_Laws3 L_Laws4.
Import ListNotations.
Local Open Scope R_scope.

(** one reaction (MT 91) with two laws, level scattering and 3-body phase space, each with probability 1/2; [y] is TYR and
    [next] the next-law entry of the first law (10: the second one) *)
Definition half_block : list R := [0; 2; 1; 2; 1/2; 1/2].
Definition exl_xss (y : R) (next : Z) : list R :=
  [91; -1; y; 1] ++ [1; 2; 5; 6] ++ [0; 0] ++ [1] ++ ([IZR next; 3; 19] ++ half_block) ++ ([0; 66; 21] ++ half_block) ++ [2; 1/2] ++ [3; 4].
Definition exl_jxs : list Z := [0; 0; 1; 2; 3; 4; 5; 9; 1; 11; 12; 0; 0; 0; 0; 0; 0; 0; 0; 0; 0; 0; 0; 0; 0; 0; 0; 0; 0; 0; 0; 0]%Z.
Definition exl (y : R) (next : Z) : ace R := mkAce 1001%Z 2 300 false (repeat 0%Z 16) exl_jxs (exl_xss y next).
Definition exl_grid : egrid R := mkGrid [1; 2] [] 0 0.
Ltac hold n m := match goal with |- holds ?a _ _ => exists (firstn n (a_xss a)), (skipn m (a_xss a)); split; reflexivity | |- entry ?a _ _ => exists (firstn n (a_xss a)), (skipn m (a_xss a)); split; reflexivity end.
Lemma half_tab : exists t, tabulated [] [] [1; 2] [1/2; 1/2] = Ok t.
Proof. unfold tabulated, make_tab. cbn. rdec. change (Pos.to_nat 2) with 2%nat. unfold make_range. cbn. rdec. cbn. eexists. reflexivity. Qed.
Lemma exl_entries y next : reaction_entries (exl y next) 0 91 (-1) y.
Proof. split; [unfold u32; lia|]. split; [hold 0%nat 1%nat|]. split; [hold 1%nat 2%nat|hold 2%nat 3%nat]. Qed.
Lemma exl_xs y next : reaction_xs (exl y next) 0 1 [5; 6].
Proof. exists 1%Z. split; [unfold u32; lia|]. split; [hold 3%nat 4%nat|]. split; [lia|]. split; [unfold u32; cbn; lia|]. hold 4%nat 8%nat. Qed.
Definition iso : adist R := mkADist [/ 100000] [isotropic].
Lemma exl_second y next : exists d, law_layout (exl y next) (Some iso) (-1) 66 [3; 4] d.
Proof.
  exists (nbody_law (mkNB 3 4 2 (-1))). apply (ll_nbody _ _ _ 3%Z 4 (mkNB 3 4 2 (-1))); [unfold u32; lia|]. unfold make_nbody. cbn. rdec. reflexivity.
Qed.
Lemma exl_first y next : law_layout (exl y next) (Some iso) (-1) 3 [2; 1/2] (uncor_law (mkUC iso (level_law (mkLevel 2 (1/2))))).
Proof. apply (ll_energy _ _ _ 3 _ _ iso); [reflexivity|]. apply el_level. Qed.
Lemma reg0 : regions_ok [] [].
Proof. split; [reflexivity|]. split; [constructor|]. split; [constructor|cbn; lia]. Qed.
Lemma exl_laws_first y : exists d2 t, reaction_laws (exl y 10) 0 (-1) [(uncor_law (mkUC iso (level_law (mkLevel 2 (1/2)))), t); (d2, t)] /\ tabulated [] [] [1; 2] [1/2; 1/2] = Ok t.
Proof.
  destruct half_tab as [t Et]. destruct (exl_second y 10) as (d & L). exists d, t. split; [|exact Et].
  exists 0%Z, (Some iso), 1%Z. split; [hold 9%nat 10%nat|]. split; [lia|]. split; [apply ad_isotropic|]. split; [unfold u32; lia|]. split; [hold 10%nat 11%nat|].
  apply (ls_more _ _ _ 1 10 3 19 [] [] [1; 2] [1/2; 1/2] [2; 1/2]); try (unfold u32; cbn; lia); try exact reg0; try reflexivity; try exact Et.
  - hold 11%nat 20%nat.
  - hold 29%nat 31%nat.
  - apply exl_first.
  - apply (ls_last _ _ _ 10 66 21 [] [] [1; 2] [1/2; 1/2] [3; 4]); try (unfold u32; cbn; lia); try exact reg0; try reflexivity; try exact Et; [hold 20%nat 29%nat|hold 31%nat 33%nat|exact L].
Qed.
Lemma exl_laws y : exists d1 d2 t, reaction_laws (exl y 10) 0 (-1) [(d1, t); (d2, t)].
Proof. destruct (exl_laws_first y) as (d & t & H & _). eexists _, _, _. exact H. Qed.
Lemma exl_reaction y : Rabs y < 100 -> exists r, reaction_of_ace (exl y 10) 0 exl_grid = Ok r.
Proof.
  intros Y. destruct (exl_laws y) as (d1 & d2 & t & L). apply (reaction_accepted _ 0 _ 91 (-1) y [(d1, t); (d2, t)] 1 [5; 6]); try exact Y; try (cbn; lia).
  - apply exl_entries.
  - intros _. exact L.
  - apply exl_xs.
  - discriminate.
  - repeat constructor; lra.
Qed.
(** the first law names itself as the next one *)
Lemma exl_cycle y n awr cm : load_neutron_fuel n (exl y 1) 0 (-1) awr cm = NoDraw.
Proof.
  destruct half_tab as [t Et].
  unfold load_neutron_fuel. rewrite (entry_i32 _ _ 0) by (lia || hold 9%nat 10%nat). cbn [bind]. change (0 <=? 0)%Z with true. cbv iota. rewrite adist_isotropic. cbn [bind].
  rewrite (entry_u32 _ _ 1) by (unfold u32; lia || hold 10%nat 11%nat). cbn [bind]. change (mkADist [/ 100000] [isotropic]) with iso.
  rewrite (self_loop _ _ _ 1 3 19 [] [] [1; 2] [1/2; 1/2] t [2; 1/2] (uncor_law (mkUC iso (level_law (mkLevel 2 (1/2)))))); try (unfold u32; cbn; lia); try exact reg0; try reflexivity; try exact Et.
  - hold 11%nat 20%nat.
  - hold 29%nat 31%nat.
  - apply exl_first.
Qed.
Lemma exl_cycle_reaction y g n : y <> 0 -> Rabs y < 100 -> make_reaction (fun a i _ => load_neutron_fuel n a i) absorption_law (exl y 1) 0 g = NoDraw.
Proof.
  intros Y Y1. rewrite (make_reaction_eq _ _ _ _ _ _ _ _ (exl_entries y 1)). unfold read_yield. change (@nltb R NumR (nabs y) (nofZ 100)) with (Rltb (Rabs y) 100). rewrite (proj2 (Rltb_true _ _) Y1). cbn [bind].
  destruct (Reqb_spec y 0) as [E|_]; [elim (Y E)|]. rewrite exl_cycle. reflexivity.
Qed.

(** a file with one block of each tabulated law, an angular distribution and a delayed family *)
Definition exk_pc : list R := [1; 2; 0; 1; 1; 1; 0; 1].
Definition exk_kt : list R := [1; 2; 0; 1; 1; 1; 0; 1; 1/2; 1/2; 1; 1].
Definition exk_eat : list R := [1; 2; 0; 1; 1; 1; 0; 1; 1; -1].
Definition exk_inc (loc : R) : list R := [0; 2; 1; 2; loc; loc].
Definition exk_xss : list R :=
  exk_pc ++ exk_kt ++ exk_eat ++ exk_inc 1 ++ exk_inc 9 ++ exk_inc 21 ++ [0; 2; 1; 2; 2; 0; 1; 0; 1] ++ (half_block ++ [3]) ++ (half_block ++ half_block ++ [3]) ++
  ub ++ [2; 1; 2; 78; -1] ++ (1/4 :: half_block) ++ [1] ++ [0; 7; 4] ++ (half_block ++ [3]).
Definition exk_jxs : list Z := [0; 0; 0; 0; 0; 0; 0; 0; 1; 0; 1; 0; 0; 0; 0; 0; 0; 0; 0; 0; 0; 0; 0; 0; 116; 123; 124; 0; 0; 0; 0; 0]%Z.
Definition exk : ace R := mkAce 1001%Z 2 300 false [0; 0; 0; 0; 0; 0; 0; 1; 0; 0; 0; 0; 0; 0; 0; 0]%Z exk_jxs exk_xss.
Definition ex_pc : pctable R := mkPC [0; 1] [1; 1] [0; 1] Histogram.
Definition ex_kt : kt R := mkKT [0; 1] [1; 1] [0; 1] [1/2; 1/2] [1; 1] Histogram.
Definition ex_eat : eat R := mkEAT [0; 1] [1; 1] [0; 1] [ex_pc; ex_pc] Histogram.
Lemma fix01 : @fix_last R NumR [0; 1] = Ok [0; 1].
Proof. unfold fix_last. change (atZ [0; 1] (sizeZ [0; 1] - 1)) with (Ok 1). cbn [bind]. rnum. replace (Reqb 1 1) with true by (rdec; reflexivity). reflexivity. Qed.
Lemma ex_pc_layout : pc_layout ex_pc exk_pc.
Proof.
  exists Histogram, [0; 1], [1; 1], [0; 1]. split; [reflexivity|]. split; [reflexivity|]. split; [reflexivity|]. split; [unfold u32; cbn; lia|]. split; [reflexivity|].
  unfold make_pc. cbn [table_interp guard bind length Nat.eqb andb negb]. replace (@is_sorted R NumR [0; 1]) with true by (cbn; rdec; reflexivity). cbn [guard bind]. rewrite fix01. cbn. rdec. reflexivity.
Qed.
Lemma ex_kt_layout : kt_layout ex_kt exk_kt.
Proof.
  exists Histogram, [0; 1], [1; 1], [0; 1], [1/2; 1/2], [1; 1]. do 5 (split; [reflexivity|]). split; [unfold u32; cbn; lia|]. split; [reflexivity|].
  unfold make_kt. cbn [table_interp guard bind length Nat.eqb andb negb]. replace (@is_sorted R NumR [0; 1]) with true by (cbn; rdec; reflexivity). cbn [guard bind].
  change (atZ [0; 1] 0) with (Ok 0). cbn [bind]. rnum. replace (Reqb 0 0) with true by (rdec; reflexivity). cbn [negb]. change (@fix_last R _ [0; 1]) with (@fix_last R NumR [0; 1]). rewrite fix01. cbn. rdec. reflexivity.
Qed.
Lemma ex_eat_layout : eat_layout exk 0 ex_eat exk_eat.
Proof.
  exists Histogram, [0; 1], [1; 1], [0; 1], [1; -1]%Z, [ex_pc; ex_pc]. do 4 (split; [reflexivity|]). split; [unfold u32; cbn; lia|]. split; [reflexivity|]. split; [repeat constructor; lia|]. split.
  - repeat constructor; exists exk_pc; (split; [hold 0%nat 8%nat|exact ex_pc_layout]).
  - unfold make_eat. cbn [table_interp guard bind]. replace (@is_sorted R NumR [0; 1]) with true by (cbn; rdec; reflexivity). cbn [guard bind].
    change (atZ [0; 1] 0) with (Ok 0). cbn [bind]. rnum. replace (Reqb 0 0) with true by (rdec; reflexivity). cbn [negb]. change (@fix_last R _ [0; 1]) with (@fix_last R NumR [0; 1]). rewrite fix01. cbn. rdec. reflexivity.
Qed.
Lemma ex_tabular JED : JED = 0%Z -> energy_layout exk JED 4 (exk_inc 1) (tabe_law (mkTabE [1; 2] [ex_pc; ex_pc])) /\ holds exk 30 (exk_inc 1).
Proof.
  intros ->. split; [|hold 30%nat 36%nat]. apply (el_tabular _ _ [] [] [1; 2] [1; 1]%Z [ex_pc; ex_pc]); try exact reg0; try (unfold u32; cbn; lia); try reflexivity.
  - repeat constructor; try (unfold u32; lia); exists exk_pc; (split; [hold 0%nat 8%nat|exact ex_pc_layout]).
  - unfold make_tabe. cbn. rdec. reflexivity.
Qed.
Lemma ex_kalbach angle q : law_layout exk angle q 44 (exk_inc 9) (kal_law (mkKal [1; 2] [ex_kt; ex_kt])) /\ holds exk 36 (exk_inc 9).
Proof.
  split; [|hold 36%nat 42%nat]. apply (ll_kalbach _ _ _ [] [] [1; 2] [9; 9]%Z [ex_kt; ex_kt]); try exact reg0; try (unfold u32; cbn; lia); try reflexivity.
  - repeat constructor; try (unfold u32, DLW; cbn; lia); exists exk_kt; (split; [hold 8%nat 20%nat|exact ex_kt_layout]).
  - unfold make_kal. cbn. rdec. reflexivity.
Qed.
Lemma ex_tea angle q : law_layout exk angle q 61 (exk_inc 21) (tea_law (mkTEA [1; 2] [ex_eat; ex_eat])) /\ holds exk 42 (exk_inc 21).
Proof.
  split; [|hold 42%nat 48%nat]. apply (ll_tabular _ _ _ [] [] [1; 2] [21; 21]%Z [ex_eat; ex_eat]); try exact reg0; try (unfold u32; cbn; lia); try reflexivity.
  - repeat constructor; try (unfold u32, DLW; cbn; lia); exists exk_eat; (split; [hold 20%nat 30%nat|exact ex_eat_layout]).
  - unfold make_tea. cbn. rdec. reflexivity.
Qed.
Lemma ex_ebins JED : energy_layout exk JED 1 [0; 2; 1; 2; 2; 0; 1; 0; 1] (ebins_law (mkEB [1; 2] [[0; 1]; [0; 1]])) /\ holds exk 48 [0; 2; 1; 2; 2; 0; 1; 0; 1].
Proof.
  split; [|hold 48%nat 57%nat]. apply (el_bins _ _ [] [] [1; 2] [[0; 1]; [0; 1]] 2); try exact reg0; try (unfold u32; cbn; lia).
  - repeat constructor.
  - unfold make_ebins. cbn. rdec. reflexivity.
Qed.
Lemma ex_maxwell JED : exists t, energy_layout exk JED 7 (half_block ++ [3]) (mw_law (t, 3)) /\ holds exk 57 (half_block ++ [3]).
Proof.
  destruct half_tab as [t Et]. exists t. split; [|hold 57%nat 64%nat]. apply (el_maxwell _ _ [] [] [1; 2] [1/2; 1/2] 3 t); try exact reg0; try (cbn; lia); try reflexivity; exact Et.
Qed.
Lemma ex_watt JED : exists t, energy_layout exk JED 11 (half_block ++ half_block ++ [3]) (watt_law (mkWatt (tab_eval t) (tab_eval t) 3)) /\ holds exk 64 (half_block ++ half_block ++ [3]).
Proof.
  destruct half_tab as [t Et]. exists t. split; [|hold 64%nat 77%nat]. apply (el_watt _ _ [] [] [1; 2] [1/2; 1/2] t [] [] [1; 2] [1/2; 1/2] t 3); try exact reg0; try (cbn; lia); try reflexivity; exact Et.
Qed.
Lemma ex_adist : adist_layout exk 111 (Some (mkADist [1; 2] [angle_bins ub; angle_table ex_pc])).
Proof.
  apply (ad_table _ 111 [1; 2] [78; -1]%Z [angle_bins ub; angle_table ex_pc]); try lia; try (unfold u32, locator_ok, AND; cbn; lia).
  - hold 110%nat 115%nat.
  - repeat constructor; unfold AND; cbn; lia.
  - constructor; [|constructor; [|constructor]].
    + apply (al_bins _ 78 ub); [lia|hold 77%nat 110%nat|exact ub_ok].
    + apply (al_table _ (-1) exk_pc ex_pc); [lia|hold 0%nat 8%nat|exact ex_pc_layout|]. unfold make_angle_table. cbn. change (Pos.to_nat 1) with 1%nat. cbn. rdec. reflexivity.
  - unfold make_adist. cbn. rdec. reflexivity.
Qed.
Lemma ex_families : exists f, families_layout exk 1 [f] (1/4 :: half_block) /\ holds exk (BDD exk) (1/4 :: half_block).
Proof.
  destruct half_tab as [t Et]. assert (T1 : exists t1, make_tab1 LinLin [1; 2] [1/2; 1/2] = Ok t1).
  { unfold make_tab1. cbn. rdec. change (Pos.to_nat 2) with 2%nat. unfold make_range. cbn. rdec. cbn. eexists. reflexivity. }
  destruct T1 as [t1 T1]. exists (mkFam (1/4 * 100000000) t1 (mw_law (t, 3))). split; [|hold 115%nat 122%nat].
  change (1/4 :: half_block) with ((1/4 :: tab_block [] [] [1; 2] [1/2; 1/2]) ++ []). apply fl_cons; [|apply fl_nil].
  exists (1/4), t1, [1/2; 1/2], [], [], [1; 2]. split; [|split; [cbn; lia|split; [reflexivity|split; [reflexivity|split; [reflexivity|]]]]].
  - split; [reflexivity|]. split; [reflexivity|]. split; [constructor|]. split; [constructor|]. split; [cbn; lia|]. split; [unfold u32; cbn; lia|exact T1].
  - exists 1%Z, 0%Z, 7%Z, 4%Z, (half_block ++ [3]). split; [unfold u32; lia|]. split; [unfold u32; lia|]. split; [lia|]. split; [cbn; tauto|]. split; [hold 122%nat 123%nat|]. split; [hold 123%nat 126%nat|]. split; [hold 126%nat 133%nat|].
    apply (el_maxwell _ _ [] [] [1; 2] [1/2; 1/2] 3 t); try exact reg0; try (cbn; lia); try reflexivity; exact Et.
Qed.

(** a file that is misread: general evaporation with the bounds 4, 5, 6; tabular energies 2, 1 (not sorted); isotropic
    energy-angle table (locators 0) *)
Definition exr_gevap : list R := half_block ++ [3; 4; 5; 6].
Definition exr_unsorted : list R := [0; 2; 2; 1; 11; 11].
Definition exr_eat : list R := [1; 2; 0; 1; 1; 1; 0; 1; 0; 0].
Definition exr_xss : list R := exr_gevap ++ exk_pc ++ exr_unsorted ++ exr_eat.
Definition exr_jxs : list Z := [0; 0; 0; 0; 0; 0; 0; 0; 1; 0; 25; 0; 0; 0; 0; 0; 0; 0; 0; 0; 0; 0; 0; 0; 0; 0; 0; 0; 0; 0; 0; 0]%Z.
Definition exr : ace R := mkAce 1001%Z 2 300 false (repeat 0%Z 16) exr_jxs exr_xss.
Lemma exr_gevap_bounds : exists d, gevap_of_ace exr 0 = Ok d /\ ge_bounds d = [3; 4; 5].
Proof.
  destruct half_tab as [t Et]. rewrite (gevap_read _ _ [] [] [1; 2] [1/2; 1/2] [4; 5; 6]); try exact reg0; try (unfold u32; cbn; lia); try reflexivity.
  - change (removelast (IZR (sizeZ [4; 5; 6]) :: [4; 5; 6])) with [3; 4; 5]. replace (@is_sorted R NumR [3; 4; 5]) with true by (cbn; rdec; reflexivity). cbn [guard bind]. rewrite Et. cbn [bind]. eexists. split; reflexivity.
  - hold 0%nat 10%nat.
Qed.
Lemma exr_tabe : tabe_of_ace exr 18 0 = Ok (mkTabE [2; 1] [ex_pc; ex_pc]) /\ make_tabe [2; 1] [ex_pc; ex_pc] = Throw.
Proof.
  split.
  - apply (tabe_read _ _ 0 [] [] [2; 1] [11; 11]%Z [ex_pc; ex_pc]); try exact reg0; try (unfold u32; cbn; lia); try reflexivity.
    + repeat constructor; try (unfold u32; lia); exists exk_pc; (split; [hold 10%nat 18%nat|exact ex_pc_layout]).
    + hold 18%nat 24%nat.
  - unfold make_tabe. cbn. rdec. reflexivity.
Qed.
Lemma exr_locator_0 : eat_of_ace exr 24 (DLW exr) = Throw.
Proof.
  assert (E : make_eat [0; 1] [1; 1] [0; 1] [ex_pc; ex_pc] Histogram = Ok ex_eat).
  { unfold make_eat. cbn [table_interp guard bind]. replace (@is_sorted R NumR [0; 1]) with true by (cbn; rdec; reflexivity). cbn [guard bind].
    change (atZ [0; 1] 0) with (Ok 0). cbn [bind]. rnum. replace (Reqb 0 0) with true by (rdec; reflexivity). cbn [negb]. change (@fix_last R _ [0; 1]) with (@fix_last R NumR [0; 1]). rewrite fix01. cbn. rdec. reflexivity. }
  apply (eat_locator_0 _ _ _ Histogram [0; 1] [1; 1] [0; 1] [0%Z] [ex_pc; ex_pc] ex_eat 11); try reflexivity; try (unfold u32; cbn; lia); try exact E.
  - hold 24%nat 34%nat.
  - repeat constructor; lia.
  - hold 23%nat 24%nat.
Qed.
Lemma iso_sample3 : adist_sample iso 3 [3/4] = Ok (1/2, []).
Proof.
  unfold adist_sample, iso. cbn. rdec. cbn. unfold rbind, rlift, rret. cbn. unfold clamp_mu. reval.
  replace (Rltb 1 (Rabs (2 * (3 / 4) - 1))) with false; [do 2 f_equal; lra|symmetry; apply Rltb_false; rewrite Rabs_right; lra].
Qed.
Lemma exl_half t E : tabulated [] [] [1; 2] [1/2; 1/2] = Ok t -> 2 < E -> tab_eval t E = Ok (1/2).
Proof.
  intros H L. 

  apply (L_Tab1DP.tab_value_last [2%Z] [LinLin] [1; 2] [1/2; 1/2] t).
  - split; [discriminate|]. cbn. lia.
  - cbn; lia.
  - exact H.
  - intros i j I0 I J. change (j < 2)%Z in J. assert (j = 1%Z) by lia. assert (i = 0%Z) by lia. subst. change (1 < 2). lra.
  - change (getR [1; 2] _) with 2. lra.
Qed.
