(** * Example thermal scattering files *)
From Coq Require Import Reals Lra Lia List.
From Verif Require Import Base NumR L_Search L_SearchR M_Interp M_Tab1D S_Tab1D M_PC S_PC M_OutE S_OutE M_Grid M_Ace M_Thermal S_Thermal S_Neutron L_Ace L_Grid L_PC L_Thermal L_Thermal2 L_Thermal3.
From Coq Require Import ZifyBool.
Import ListNotations.
Local Open Scope R_scope.

Definition tr_nxs (n2 n3 n4 n5 n6 : Z) : list Z := [0; 0; n2; n3; n4; n5; n6; 0; 0; 0; 0; 0; 0; 0; 0; 0]%Z.
Definition tr_jxs (j2 j3 j5 : Z) : list Z := [1; 0; j2; j3; 0; j5; 0; 0; 0; 0; 0; 0; 0; 0; 0; 0; 0; 0; 0; 0; 0; 0; 0; 0; 0; 0; 0; 0; 0; 0; 0; 0]%Z.
Definition th (n2 n3 n4 n5 n6 j2 j3 j5 : Z) (x : list R) : ace R := mkAce 1%Z 1 300 false (tr_nxs n2 n3 n4 n5 n6) (tr_jxs j2 j3 j5) x.
Lemma u32_at' (a : ace R) i z : xss a i = Ok (IZR z) -> u32 z -> xss_u32 a i = Ok z.
Proof. intros E U. unfold xss_u32. rewrite E. apply trunc_u32_IZR. exact U. Qed.
Ltac u32v z := match goal with |- context [xss_u32 ?a ?i] => let U := fresh in assert (U : xss_u32 a i = Ok z) by (apply u32_at'; [reflexivity|unfold u32; lia]); rewrite U; clear U; cbn [bind] end.
Ltac vecv l := match goal with |- context [xss_vec ?a ?i ?n] => change (xss_vec a i n) with (@Ok (list R) l); cbn [bind] end.
Ltac xv v := match goal with |- context [xss ?a ?i] => change (xss a i) with (@Ok R v); cbn [bind] end.
Ltac srt := match goal with |- context [@is_sorted R NumR ?l] => let I := fresh in assert (I : @is_sorted R NumR l = true) by (cbn; rdec; reflexivity); rewrite I; clear I; cbn [guard bind] end.
Ltac cond := match goal with |- context [(if ?b then _ else _)] => first [change b with true|change b with false]; cbv iota end.
Ltac frt l := match goal with |- context [@frontR R ?v] => change (@frontR R v) with (@Ok R l); cbn [bind] end.
Ltac bck l := match goal with |- context [@backR R ?v] => change (@backR R v) with (@Ok R l); cbn [bind] end.
Ltac lts := repeat match goal with
  | |- context [@nltb R NumR ?a ?b] => change (@nltb R NumR a b) with (Rltb a b); first [replace (Rltb a b) with true by (symmetry; apply Rltb_true; rch; lra)|replace (Rltb a b) with false by (symmetry; apply Rltb_false; rch; lra)]; cbv iota
  | |- context [@nleb R NumR ?a ?b] => change (@nleb R NumR a b) with (Rleb a b); first [replace (Rleb a b) with true by (symmetry; apply Rleb_true; rch; lra)|replace (Rleb a b) with false by (symmetry; apply Rleb_false; rch; lra)]; cbv iota end.
Definition coh_ex : ace R := th 0 0 4 0 0 0 1 0 [2; 1; 4; 3; 5].
Lemma coh_example : make_coh coh_ex = Ok (mkCoh [1; 4] [3; 5]) /\ increasing [3; 5] /\ 0 <= getR [3; 5] 0 /\ (0 < sizeZ [1%R; 4%R])%Z /\ getR [1; 4] 0 < 2.
Proof.
  split.
  - unfold make_coh. cond. cbv zeta. u32v 2%Z. vecv [1; 4]. vecv [3; 5]. srt. frt 1. lts. reflexivity.
  - split; [|cbn; split; [lra|split; [lia|lra]]]. apply is_sorted_increasing. cbn. rdec. reflexivity.
Qed.
Definition dce_ex : dce R := mkDCE [1; 2] [[(1, [-1; 1]); (2, [0; 1])]; [(3, [-1; 0]); (4, [0; 1])]] 2%Z 2%Z false.
Lemma dce_example : exists a, make_dce a = Ok dce_ex /\ (0 < sizeZ (d_in dce_ex))%Z /\ (0 < d_noe dce_ex)%Z /\ (0 < d_nmu dce_ex)%Z.
Proof.
  exists (th 1 2 0 0 0 6 0 0 [2; 1; 2; 0; 0; 1; -1; 1; 2; 0; 1; 3; -1; 0; 4; 0; 1]). split; [|cbn; lia].
  unfold make_dce. match goal with |- context [guard ?b] => change (guard b) with (Ok tt) end. cbn [bind]. cbv zeta. u32v 2%Z. vecv [1; 2]. srt.
  match goal with |- context [guard ?b] => change (guard b) with (Ok tt) end. cbn [bind].
  match goal with |- context [@read_dce R NumR ?n ?m ?a ?i ?k] => change n with 2%nat; change m with 2%nat; change i with 5%Z; change k with 2%Z end. cbn [read_dce read_dce_row].
  Ltac rd v l := xv v; lts; vecv l; cbn [existsb]; lts; cbn [orb negb guard bind].
  rd 1 [-1; 1]. rd 2 [0; 1]. rd 3 [-1; 0]. rd 4 [0; 1]. reflexivity.
Qed.
(** tables of two points and of one *)
Lemma sorted2 (a b : R) : a <= b -> @is_sorted R NumR [a; b] = true.
Proof. intros H. apply is_sorted_increasing. intros i j Hi Hij Hj. change (sizeZ [a; b]) with 2%Z in Hj. assert (i = 0 \/ i = 1)%Z as [-> | ->] by lia; assert (j = 0 \/ j = 1)%Z as [-> | ->] by lia; try (exfalso; lia);
  change (getR [a; b] 0) with a; change (getR [a; b] 1) with b; lra. Qed.
Lemma strict2 (a b : R) : a < b -> strictly_increasing [a; b].
Proof. intros H i j Hi Hij Hj. change (sizeZ [a; b]) with 2%Z in Hj. assert (i = 0)%Z as -> by lia. assert (j = 1)%Z as -> by lia. exact H. Qed.
Lemma tab1_two (x1 x2 y1 y2 : R) : x1 <= x2 -> make_tab1 LinLin [x1; x2] [y1; y2] = Ok (mkTab [2%Z] [LinLin] [x1; x2] [y1; y2] [mkRange LinLin [x1; x2] [y1; y2]]).
Proof.
  intros H. pose proof (sorted2 _ _ H) as S. unfold make_tab1. rewrite S. cbn [length Nat.eqb guard bind]. change (sizeZ [x1; x2] mod 4294967296)%Z with 2%Z.
  change (slice [x1; x2] 0 2) with (Ok [x1; x2]). change (slice [y1; y2] 0 2) with (Ok [y1; y2]). cbn [bind].
  unfold make_range. cbn [length Nat.eqb guard bind negb]. rewrite S. cbn [guard bind verify_x_grid verify_y_grid]. rewrite S. reflexivity.
Qed.
Lemma tab1_one (x1 y1 : R) : make_tab1 LinLin [x1] [y1] = Ok (mkTab [1%Z] [LinLin] [x1] [y1] [mkRange LinLin [x1] [y1]]).
Proof. reflexivity. Qed.

(** ** continuous energies *)
Definition cedc_exR (j3 n4 : Z) : ace R := th 3 0 n4 0 2 8 j3 0 ([2; 1; 2; 5; 6; 0; 0; 11; 11; 2; 2] ++ [0; 1; 0; -(1/2); 1/2] ++ [1; 1; 1; -(1/2); 1/2]).
Definition ct_ex : ctable R := mkCT [0; 1] [1; 1] [0; 1] [[-(1/2); 1/2]; [-(1/2); 1/2]].
Definition cedc_ok : cedc R := mkCEDC [1; 2] [ct_ex; ct_ex] 2%Z true.
Lemma entries_ex j3 n4 : read_entries 2 (cedc_exR j3 n4) 11 2 = Ok [(0, 1, 0, [-(1/2); 1/2]); (1, 1, 1, [-(1/2); 1/2])].
Proof.
  cbn [read_entries]. 
  xv 0. xv 1. xv 0. vecv [-(1/2); 1/2]. rewrite (sorted2 (-(1/2)) (1/2)) by lra. frt (-(1/2)). lts. bck (1/2). lts.
  xv 1. xv 1. xv 1. vecv [-(1/2); 1/2]. rewrite (sorted2 (-(1/2)) (1/2)) by lra. frt (-(1/2)). lts. bck (1/2). lts. cbn [bind andb]. reflexivity.
Qed.
Lemma ctable_ex j3 n4 : make_ctable (cedc_exR j3 n4) 11 2 2 = Ok ct_ex.
Proof.
  unfold make_ctable. change (Z.to_nat 2) with 2%nat. rewrite entries_ex. cbn [bind]. lts. cbn [map fst snd]. rewrite (sorted2 0 1) by lra. cbn [guard bind]. frt 0. lts.
  cbn [mapR]. unfold fix_pdf. lts. cbn [bind]. reflexivity.
Qed.
Lemma cedc_make j3 n4 : make_cedc (cedc_exR j3 n4) true = Ok cedc_ok.
Proof.
  unfold make_cedc. match goal with |- context [guard ?b] => change (guard b) with (Ok tt) end. cbn [bind]. cbv zeta. u32v 2%Z. vecv [1; 2]. rewrite (sorted2 1 2) by lra. cbn [guard bind].
  match goal with |- context [wrap32 (nxs ?a 2 - 1)] => change (wrap32 (nxs a 2 - 1)) with 2%Z; change (wrap32 (jxs a 2 - 1)) with 7%Z; change (wrap32 (7 + 2)) with 9%Z end.
  unfold xss_vec_u32. change (zseq 7 (Z.to_nat 2)) with [7; 8]%Z. change (zseq 9 (Z.to_nat 2)) with [9; 10]%Z. cbn [mapR].
  u32v 11%Z. u32v 11%Z. u32v 2%Z. u32v 2%Z. cbn [make_ctables]. rewrite ctable_ex. reflexivity.
Qed.
Lemma two_cases (P : Z -> Prop) k : P 0%Z -> P 1%Z -> (0 <= k < 2)%Z -> P k.
Proof. intros A B H. assert (k = 0 \/ k = 1)%Z as [-> | ->] by lia; assumption. Qed.
Lemma ct_ex_valid : valid_ct 2 ct_ex.
Proof.
  split; [destruct (make_ctable_shape (cedc_exR 0 0) 11 2 2 _ ltac:(lia) (ctable_ex 0 0)) as [S _]; exact S|].
  constructor; try reflexivity.
  - right; reflexivity.
  - change (1 <= 2)%Z. lia.
  - apply is_sorted_increasing, (sorted2 0 1). lra.
  - intros p [<-|[<-|[]]]; lra.
  - intros k K1 K2. change (sizeZ (ct_energy ct_ex)) with 2%Z in K2. assert (k = 0)%Z as -> by lia. change (getR (ct_cdf ct_ex) (0 + 1)) with 1. change (getR (ct_cdf ct_ex) 0) with 0. unfold seg_area.
    change (getR (ct_energy ct_ex) (0 + 1)) with 1. change (getR (ct_energy ct_ex) 0) with 0. change (getR (ct_pdf ct_ex) (0 + 1)) with 1. change (getR (ct_pdf ct_ex) 0) with 1. lra.
Qed.
Lemma cedc_example : exists a u d, make_cedc a u = Ok d /\ u = true /\ (2 <= sizeZ (ce_in d))%Z /\ (forall t, In t (ce_tables d) -> valid_ct (ce_nmu d) t) /\ (forall t, In t (ce_tables d) -> (2 <= sizeZ (ct_energy t))%Z).
Proof.
  exists (cedc_exR 0 0), true, cedc_ok. split; [apply cedc_make|]. split; [reflexivity|]. split; [change (2 <= 2)%Z; lia|].
  split; intros t [<-|[<-|[]]]; try exact ct_ex_valid; change (2 <= 2)%Z; lia.
Qed.
(** ** incoherent elastic *)
Lemma rows_ex (a : ace R) i : xss_vec a i 2 = Ok [-(1/2); 1/2] -> forall k, read_cosines (S k) a i 2 = (let! rest := read_cosines k a (i + 2) 2 in Ok ([-(1/2); 1/2] :: rest)).
Proof. intros E k. cbn [read_cosines]. rewrite E. cbn [bind]. rewrite (sorted2 (-(1/2)) (1/2)) by lra. cbn [guard bind]. frt (-(1/2)). lts. bck (1/2). lts. reflexivity. Qed.
Lemma inco_example : exists a d, make_inco a = Ok d /\ (2 <= sizeZ (ie_in d))%Z /\ strictly_increasing (ie_in d) /\ nxs a 4 <> 4%Z /\ jxs a 3 <> 0%Z.
Proof.
  eexists (th 0 0 0 1 0 0 1 6 [2; 1; 2; 5; 6; -(1/2); 1/2; -(1/2); 1/2]), _. split.
  - unfold make_inco. cond. cbv zeta. u32v 2%Z. vecv [1; 2]. vecv [5; 6]. cbn [existsb]. lts. cbn [orb negb guard bind]. rewrite tab1_two by lra. cbn [bind].
    match goal with |- context [wrap32 ?z] => change (wrap32 z) with 2%Z end. match goal with |- context [read_cosines _ ?a ?i _] => change i with 5%Z end. change (Z.to_nat 2) with 2%nat.
    rewrite !rows_ex by reflexivity. cbn [read_cosines bind]. reflexivity.
  - cbn [ie_in]. split; [change (2 <= 2)%Z; lia|]. split; [apply strict2; lra|]. split; discriminate.
Qed.
Lemma inco_example1 : exists a d, make_inco a = Ok d /\ sizeZ (ie_in d) = 1%Z.
Proof.
  eexists (th 0 0 0 1 0 0 1 4 [1; 1; 5; -(1/2); 1/2]), _. split.
  - unfold make_inco. cond. cbv zeta. u32v 1%Z. vecv [1]. vecv [5]. cbn [existsb]. lts. cbn [orb negb guard bind]. rewrite tab1_one by lra. cbn [bind].
    match goal with |- context [wrap32 ?z] => change (wrap32 z) with 2%Z end. match goal with |- context [read_cosines _ ?a ?i _] => change i with 3%Z end. change (Z.to_nat 1) with 1%nat.
    rewrite !rows_ex by reflexivity. cbn [read_cosines bind]. reflexivity.
  - reflexivity.
Qed.
(** ** the law *)
Lemma inin_ex j3 n4 : make_inin (cedc_exR j3 n4) true = Ok (mkInin (mkTab [2%Z] [LinLin] [1; 2] [5; 6] [mkRange LinLin [1; 2] [5; 6]]) (AeContinuous cedc_ok)).
Proof.
  unfold make_inin. cbv zeta. u32v 2%Z. vecv [1; 2]. vecv [5; 6]. rewrite tab1_two by lra. cbn [bind]. repeat cond. rewrite cedc_make. reflexivity.
Qed.
Lemma tsl_example : exists a u t, make_tsl a u = Ok t /\ (0 < sizeZ (t_x (ii_xs (t_inel t))))%Z /\ strictly_increasing (t_x (ii_xs (t_inel t))) /\ t_has_coh t = false /\ t_has_inc t = false.
Proof.
  destruct (make_inco_absent (cedc_exR 0 0) (or_intror eq_refl)) as (i & EI & _). eexists (cedc_exR 0 0), true, _. split.
  - unfold make_tsl. rewrite inin_ex. cbn [bind]. match goal with |- context [negb ?b] => change (negb b) with false end. cbv iota. rewrite EI. cbn [bind]. rewrite make_coh_absent by discriminate. reflexivity.
  - cbn [t_inel ii_xs t_x t_has_coh t_has_inc]. split; [change (0 < 2)%Z; lia|]. split; [apply strict2; lra|]. split; reflexivity.
Qed.
Lemma tsl_example2 : exists a u ii, make_inin a u = Ok ii /\ nxs a 4 = 4%Z /\ jxs a 3 = 0%Z.
Proof. eexists (cedc_exR 0 4), true, _. split; [apply inin_ex|]. split; reflexivity. Qed.
Lemma inin_dispatch (a : ace R) u t E ds : make_tsl a u = Ok t -> (exists d, make_dce a = Ok d /\ (nxs a 6 = 0 \/ nxs a 6 = 1)%Z /\ inin_sample (t_inel t) E ds = dce_sample d E ds) \/
  (exists d, make_cedc a u = Ok d /\ nxs a 6 = 2%Z /\ inin_sample (t_inel t) E ds = cedc_sample d E ds).
Proof.
  intros M. destruct (make_tsl_parts a u t M) as (I & _). unfold make_inin in I. apply bind_ok in I as (? & _ & I). apply bind_ok in I as (? & _ & I). apply bind_ok in I as (? & _ & I). apply bind_ok in I as (? & _ & I).
  destruct ((nxs a 6 =? 0) || (nxs a 6 =? 1))%Z%bool eqn:Q.
  - apply bind_ok in I as (d & D & I). left. exists d. split; [exact D|]. split; [lia|]. assert (EQ : t_inel t = mkInin x2 (AeDiscrete d)) by congruence. rewrite EQ. reflexivity.
  - destruct (nxs a 6 =? 2)%Z eqn:Q2; [|discriminate]. apply bind_ok in I as (d & D & I). right. exists d. split; [exact D|]. split; [lia|]. assert (EQ : t_inel t = mkInin x2 (AeContinuous d)) by congruence. rewrite EQ. reflexivity.
Qed.
Lemma dce_skew_example : exists a d, make_dce a = Ok d /\ (0 < sizeZ (d_in d))%Z /\ (0 < d_nmu d)%Z /\ d_skewed d = true.
Proof.
  eexists (th 0 6 0 0 1 3 0 0 [1; 1; 1; 0; 2; 0; 3; 0; 4; 0; 5; 0; 6; 0]), _. split.
  - unfold make_dce. match goal with |- context [guard ?b] => change (guard b) with (Ok tt) end. cbn [bind]. cbv zeta. u32v 1%Z. vecv [1]. srt.
    match goal with |- context [guard ?b] => change (guard b) with (Ok tt) end. cbn [bind].
    match goal with |- context [@read_dce R NumR ?n ?m ?a ?i ?k] => change n with 1%nat; change m with 6%nat; change i with 2%Z; change k with 1%Z end. cbn [read_dce read_dce_row].
    rd 1 [0]. rd 2 [0]. rd 3 [0]. rd 4 [0]. rd 5 [0]. rd 6 [0]. reflexivity.
  - cbn [d_in d_nmu d_skewed]; split; [change (0 < 1)%Z; lia|split; reflexivity].
Qed.
