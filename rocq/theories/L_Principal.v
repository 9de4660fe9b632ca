(** * The principal cross sections of a nuclide are those of the ESZ block *)
From Coq Require Import Reals Lra Lia List ZifyBool ZifyNat.
From Verif Require Import Base NumR L_Search L_SearchR M_Interp M_Tab1D M_Func M_Grid M_Packet M_PC M_Spectra M_Ace M_Neutron S_Grid S_Neutron L_PC L_Grid L_Xs L_Neutron L_Ace L_Neutron2 S_Principal.
Import ListNotations.
Local Open Scope R_scope.

Lemma vec_holds a i n l : xss_vec a i n = Ok l -> holds a i l /\ sizeZ l = n.
Proof.
  intros H. unfold xss_vec in H. pose proof (slice_size _ _ _ _ H) as (S & S1 & S2). split; [|lia].
  unfold slice in H. destruct (_ && _)%bool; [|discriminate]. injection H as <-.
  exists (firstn (Z.to_nat i) (a_xss a)), (skipn (Z.to_nat (i + n - i)) (skipn (Z.to_nat i) (a_xss a))).
  split; [|unfold sizeZ in *; rewrite firstn_length; lia].
  rewrite firstn_skipn. symmetry. apply firstn_skipn.
Qed.
Lemma holds_join a i l1 l2 : holds a i l1 -> holds a (i + sizeZ l1) l2 -> holds a i (l1 ++ l2).
Proof.
  intros (p1 & q1 & E1 & S1) (p2 & q2 & E2 & S2). 
  assert (Q : p2 = p1 ++ l1).
  { assert (H : length p2 = length (p1 ++ l1)) by (rewrite app_length; unfold sizeZ in *; lia).
    assert (F : firstn (length p2) (p2 ++ l2 ++ q2) = firstn (length p2) ((p1 ++ l1) ++ q1)) by (rewrite <- E2, E1, app_assoc; reflexivity).
    rewrite firstn_app, Nat.sub_diag, firstn_all, firstn_O, app_nil_r in F. rewrite H in F. rewrite firstn_app, Nat.sub_diag, firstn_all, firstn_O, app_nil_r in F. exact F. }
  subst p2. exists p1, q2. split; [|exact S1]. rewrite E2, <- !app_assoc. reflexivity.
Qed.
Lemma xs_of_ace_vals a i g h x : grid_ok (g_vals g) -> xs_of_ace a i g h = Ok x ->
  exists vals, tabulates g x vals /\ holds a i vals /\ sizeZ vals = wrap32 (nxs a 2) /\ (h = false -> nonneg vals).
Proof.
  intros G H. destruct (xs_of_ace_ok _ _ _ _ _ G H) as ([[X1 X2 X3 X4] X5] & X6 & X7). unfold xs_of_ace in H. apply bind_ok in H as (vals & Ev & H).
  assert (V : x_vals x = vals). { unfold make_xs_ace in H. destruct (negb _); [discriminate|]. destruct (_ && _)%bool; [discriminate|]. injection H as <-. reflexivity. }
  apply vec_holds in Ev as [E1 E2]. exists vals. rewrite <- V in *. split; [|auto]. split; [exact X5|]. split; [reflexivity|]. split; [exact X6|]. split; [exact X2|].
  rewrite <- X5, X6 in *. lia.
Qed.
Lemma main_xs_block a g NB tot dis ela hea pho : fits a -> bins_ok NB -> (nxs a 2 < 2 ^ 30)%Z -> grid_of_ace a NB = Ok g -> read_main_xs a g = Ok (tot, dis, ela, hea, pho) ->
  exists t d e h, holds a (ESZ a) (g_vals g ++ t ++ d ++ e ++ h) /\ sizeZ (g_vals g) = nxs a 2 /\ 
    tabulates g tot t /\ tabulates g dis d /\ tabulates g ela e /\ tabulates g hea h /\ nonneg t /\ nonneg d /\ nonneg e /\
    (jxs a 11 = 0%Z -> forall E, xs_eval pho E = Ok 0) /\
    (jxs a 11 <> 0%Z -> exists p, tabulates g pho p /\ holds a (GPD a) p).
Proof.
  intros F B N Eg H. pose proof H as H'. unfold read_main_xs in H. apply bind_ok in H as (x1 & E1 & H). apply bind_ok in H as (x2 & E2 & H). apply bind_ok in H as (x3 & E3 & H).
  apply bind_ok in H as (x4 & E4 & H). apply bind_ok in H as (x5 & E5 & H). injection H as -> -> -> -> ->.
  destruct (main_xs_inv _ _ _ _ _ _ _ _ F B Eg H') as (G & _).
  pose proof Eg as Eg'. unfold grid_of_ace in Eg. apply bind_ok in Eg as (vals & Ev & Eg). apply bind_ok in Eg as (u & _ & Eg).
  assert (V : g_vals g = vals).
  { unfold make_grid_ace in Eg. apply bind_ok in Eg as (u1 & _ & Eg). apply bind_ok in Eg as (f & _ & Eg). destruct (nleb f (nofZ 0)); [discriminate|].
    unfold hash_grid in Eg. apply bind_ok in Eg as (f1 & _ & Eg). apply bind_ok in Eg as (b1 & _ & Eg). apply bind_ok in Eg as (p & _ & Eg). injection Eg as <-. reflexivity. }
  apply vec_holds in Ev as [Hv Sv]. assert (S1 : (1 <= sizeZ (g_vals g))%Z) by (destruct G; lia). rewrite <- V in *.
  assert (W : forall k, (0 <= k <= 4)%Z -> wrap32 (k * wrap32 (nxs a 2)) = (k * nxs a 2)%Z).
  { intros k Hk. unfold wrap32. rewrite (Z.mod_small (nxs a 2)) by lia. apply Z.mod_small. assert (0 <= k * nxs a 2 <= 4 * nxs a 2)%Z by nia. lia. }
  pose proof (W 1%Z ltac:(lia)) as W1. pose proof (W 2%Z ltac:(lia)) as W2. pose proof (W 3%Z ltac:(lia)) as W3. pose proof (W 4%Z ltac:(lia)) as W4.
  assert (W0 : wrap32 (nxs a 2) = nxs a 2) by (unfold wrap32; rewrite Z.mod_small; lia).
  destruct (xs_of_ace_vals _ _ _ _ _ G E1) as (t & T1 & H1 & L1 & P1). destruct (xs_of_ace_vals _ _ _ _ _ G E2) as (d & T2 & H2 & L2 & P2).
  destruct (xs_of_ace_vals _ _ _ _ _ G E3) as (e & T3 & H3 & L3 & P3). destruct (xs_of_ace_vals _ _ _ _ _ G E4) as (h & T4 & H4 & L4 & P4).
  rewrite ?W2 in H2. rewrite W3 in H3. rewrite W4 in H4. rewrite W0 in *.
  exists t, d, e, h. split.
  { apply holds_join; [exact Hv|]. rewrite Sv. apply holds_join; [exact H1|]. rewrite L1. apply holds_join.
    - replace (ESZ a + nxs a 2 + nxs a 2)%Z with (ESZ a + 2 * nxs a 2)%Z by lia. exact H2.
    - rewrite L2. replace (ESZ a + nxs a 2 + nxs a 2 + nxs a 2)%Z with (ESZ a + 3 * nxs a 2)%Z by lia. apply holds_join; [exact H3|].
      rewrite L3. replace (ESZ a + 3 * nxs a 2 + nxs a 2)%Z with (ESZ a + 4 * nxs a 2)%Z by lia. exact H4. }
  split; [exact Sv|]. split; [exact T1|]. split; [exact T2|]. split; [exact T3|]. split; [exact T4|].
  split; [exact (P1 eq_refl)|]. split; [exact (P2 eq_refl)|]. split; [exact (P3 eq_refl)|].
  destruct (jxs a 11 =? 0)%Z eqn:J.
  - split; [|lia]. intros _ E. unfold make_xs_single in E5. change (@nltb R NumR) with Rltb in E5. change (@nofZ R NumR 0) with 0 in E5.
    destruct (Rltb_spec 0 0); [lra|]. injection E5 as <-. unfold xs_eval. cbn [x_grid x_vals x_single x_index]. unfold frontR.
    rewrite atR by lia. cbn [bind]. destruct (nltb E _); reflexivity.
  - split; [lia|]. intros _. destruct (xs_of_ace_vals _ _ _ _ _ G E5) as (p & Tp & Hp & _). exists p. auto.
Qed.
Section Neutron.
  Variable load : ace R -> Z -> Z -> R -> R -> bool -> res (aelaw R).
  Variable absorb : Z -> aelaw R.
  Variable load_delayed : ace R -> Z -> res (elaw R).
  Variable load_elastic : ace R -> res (adist R).
  Notation make_neutron := (make_neutron load absorb load_delayed load_elastic).
  Lemma finish_meta a g temp fissile xs el f mts idx rs n : finish a g temp fissile xs el f mts idx rs = Ok n ->
    n_temperature n = temp /\ n_fissile n = fissile /\ n_elastic n = el.
  Proof.
    unfold finish. destruct xs as [[[[tot dis] ela] hea] pho]. intros H. apply bind_ok in H as (fx & Ef & H). apply bind_ok in H as (h & _ & H).
    apply bind_ok in H as (cx & _ & H). apply bind_ok in H as (u & _ & H). injection H as <-. cbn. auto.
  Qed.
  Lemma neutron_principal NB a n : fits a -> bins_ok NB -> (nxs a 2 < 2 ^ 30)%Z -> make_neutron NB a = Ok n ->
    principal a n /\ n_temperature n = a_temperature a /\ n_fissile n = a_fissile a.
  Proof.
    intros F B N H. destruct (neutron_parts _ _ _ _ _ _ _ H) as (g & [[[[tot dis] ela] hea] pho] & mts & idx & rs & f & Eg & Ex & El & Ef & En).
    destruct (finish_fields _ _ _ _ _ _ _ _ _ _ _ En) as (F1 & F2 & F3 & F4 & F5 & F6 & F7). injection F6 as F61 F62 F63 F64 F65.
    destruct (finish_meta _ _ _ _ _ _ _ _ _ _ _ En) as (M1 & M2 & _). split; [|auto].
    destruct (main_xs_block _ _ _ _ _ _ _ _ F B N Eg Ex) as (t & d & e & h & Q). exists t, d, e, h. cbv zeta. rewrite F5, F61, F62, F63, F64, F65. exact Q.
  Qed.
  Lemma neutron_from_principal NB a n0 n : fits a -> bins_ok NB -> (nxs a 2 < 2 ^ 30)%Z -> make_neutron_from absorb NB a n0 = Ok n ->
    principal a n /\ n_temperature n = a_temperature a /\ n_fissile n = n_fissile n0 /\ n_elastic n = n_elastic n0.
  Proof.
    intros F B N H. unfold make_neutron_from in H.
    apply bind_ok in H as (g & Eg & H). apply bind_ok in H as ([[[[tot dis] ela] hea] pho] & Ex & H). apply bind_ok in H as ([[mts idx] rs] & El & H).
    apply bind_ok in H as (f & Ef & En).
    destruct (finish_fields _ _ _ _ _ _ _ _ _ _ _ En) as (F1 & F2 & F3 & F4 & F5 & F6 & F7). injection F6 as F61 F62 F63 F64 F65.
    destruct (finish_meta _ _ _ _ _ _ _ _ _ _ _ En) as (M1 & M2 & M3). split; [|auto].
    destruct (main_xs_block _ _ _ _ _ _ _ _ F B N Eg Ex) as (t & d & e & h & Q). exists t, d, e, h. cbv zeta. rewrite F5, F61, F62, F63, F64, F65. exact Q.
  Qed.
End Neutron.
