(** * Objects derived from other objects: everything proved of a file holds of them *)
From Verif Require Import Base NumR L_Search L_SearchR M_Interp M_Tab1D M_Func M_Grid M_Packet M_PC M_Spectra M_Ace M_Neutron S_Grid S_Neutron L_PC L_Grid L_Xs L_Neutron L_Ace L_Neutron2 L_Urr L_Neutron3.
From Coq Require Import ZifyBool ZifyNat.
Local Open Scope R_scope.

Section Neutron.
  Variable load : ace R -> Z -> Z -> R -> R -> bool -> res (aelaw R).
  Variable absorb : Z -> aelaw R.
  Variable load_delayed : ace R -> Z -> res (elaw R).
  Variable load_elastic : ace R -> res (adist R).
  Notation make_neutron := (make_neutron load absorb load_delayed load_elastic).
  Notation neutron_obj := (neutron_obj load absorb load_delayed load_elastic).

  (** the objects a program can hold, made from files that fit in memory: read from a file, or derived from another object and a file *)
  Inductive held : neutron R -> Prop :=
  | held_file NB a n : fits a -> bins_ok NB -> make_neutron NB a = Ok n -> held n
  | held_from NB a n0 n : held n0 -> fits a -> bins_ok NB -> make_neutron_from absorb NB a n0 = Ok n -> held n.
  Lemma held_obj n : held n -> neutron_obj n.
  Proof. induction 1; [eapply obj_file; eauto|eapply obj_from; eauto]. Qed.

  Lemma from_is_good NB a n0 n : fits a -> bins_ok NB -> make_neutron_from absorb NB a n0 = Ok n -> neutron_good n.
  Proof.
    intros F B H. unfold make_neutron_from in H.
    apply bind_ok in H as (g & Eg & H). apply bind_ok in H as ([[[[tot dis] ela] hea] pho] & Ex & H). apply bind_ok in H as ([[mts idx] rs] & El & H).
    apply bind_ok in H as (f & Ef & En).
    destruct (finish_fields _ _ _ _ _ _ _ _ _ _ _ En) as (F1 & F2 & F3 & F4 & F5 & F6 & F7). injection F6 as F61 F62 F63 F64 F65.
    destruct (main_xs_inv _ _ _ _ _ _ _ _ F B Eg Ex) as (G & K & X1 & X2 & X3 & X4).
    assert (SL : forall mt r, slot (fis_slots f) mt = Some r -> good g (rx_xs r) /\ rx_threshold r = getR (g_vals g) (x_index (rx_xs r))).
    { unfold M_Neutron.make_fission_from in Ef. destruct (a_fissile a).
      - apply bind_ok in Ef as (s & Es & Ef). apply bind_ok in Ef as (ps & _ & Ef). injection Ef as <-.
        intros mt r Hs.
        assert (N0 : forall mt (r : reaction R), slot no_slots mt = Some r -> good g (rx_xs r) /\ rx_threshold r = getR (g_vals g) (x_index (rx_xs r))).
        { intros m q Hn. exfalso. unfold slot, get_slot in Hn. cbn in Hn. repeat destruct (_ =? _)%Z in Hn; discriminate. }
        revert mt r Hs. unfold fis_slots. cbn. destruct s; cbn. eapply (fission_loop_all (fun r => good g (rx_xs r) /\ rx_threshold r = getR (g_vals g) (x_index (rx_xs r)))); [|exact N0|exact Es].
        intros mt' i r' Er. cbn beta in Er. destruct (fission_slot (n_fission n0) mt'); [|discriminate]. exact (make_reaction_from_good a _ g _ _ G Er).
      - injection Ef as <-. intros mt r Hn. exfalso. unfold slot, get_slot in Hn. cbn in Hn. repeat destruct (_ =? _)%Z in Hn; discriminate. }
    split; rewrite ?F5; try (rewrite ?F61, ?F62, ?F63, ?F64; assumption).
    - exists NB. auto.
    - eapply fission_xs_good; [exact G| |exact F7]. intros r Hr. apply (SL 18%Z). exact Hr.
    - rewrite F3. eapply reaction_loop_all; [|constructor|exact El]. intros mt i r Er. cbn beta in Er. apply bind_ok in Er as (k & _ & Er). apply bind_ok in Er as (r0 & _ & Er). exact (make_reaction_from_good a _ g _ _ G Er).
    - rewrite F4. exact SL.
  Qed.
  Lemma held_good n : held n -> neutron_good n.
  Proof. destruct 1 as [NB a n F B H|NB a n0 n _ F B H]; [eapply neutron_is_good; eauto|eapply from_is_good; eauto]. Qed.

  Lemma finish_urr a g temp fissile xs el f mts idx rs n : finish a g temp fissile xs el f mts idx rs = Ok n -> neutron_good n -> urr_ok (n_grid n) (n_urr n).
  Proof.
    intros En [G _ _ _ [NE _] [NH _] NF NR NS].
    destruct (finish_fields _ _ _ _ _ _ _ _ _ _ _ En) as (F1 & F2 & F3 & F4 & F5 & F6 & F7). destruct xs as [[[[tot dis] ela] hea] pho]. injection F6 as F61 F62 F63 F64 F65.
    rewrite F3, F4, F5, ?F63, ?F64 in *.
    unfold finish in En. apply bind_ok in En as (fx & Efx & En). rewrite F7 in Efx. injection Efx as <-. apply bind_ok in En as (h & Eh & En).
    apply bind_ok in En as (cx & Ecx & En). apply bind_ok in En as (u & Eu & En). assert (U : n_urr n = u) by (injection En as <-; reflexivity). rewrite U.
    eapply make_urr_ok; [| | | | |exact Eu]; [left; exact NE| |exact NF|exact NH|].
    - destruct h; [|right; apply make_zero; exact Ecx]. apply bind_ok in Ecx as (r & Er & Ecx). injection Ecx as <-. left.
      unfold get_reaction in Er. rewrite Eh in Er. cbn [bind negb] in Er. change (is_fission_mt 102) with false in Er. cbn match in Er. apply bind_ok in Er as (k & _ & Er).
      rewrite Forall_forall in NR. apply NR. apply atZ_In in Er. exact Er.
    - eapply Forall_impl; [|exact NR]. intros r [R1 _]. left. exact R1.
  Qed.
  Lemma held_urr n : held n -> urr_ok (n_grid n) (n_urr n).
  Proof.
    intros O. pose proof (held_good n O) as NG. destruct O as [NB a n F B H|NB a n0 n _ F B H].
    - exact (proj2 (neutron_urr _ _ _ _ _ _ _ F B H)).
    - unfold make_neutron_from in H. apply bind_ok in H as (g & Eg & H). apply bind_ok in H as (xs & Ex & H). apply bind_ok in H as ([[mts idx] rs] & El & H).
      apply bind_ok in H as (f & Ef & En). eapply finish_urr; eauto.
  Qed.
  Lemma elastic_grid n : held n -> x_grid (u_elastic (n_urr n)) = n_grid n.
  Proof. intros O. destruct (held_urr n O) as [_ [[[_ G] _]|Z0] _ _ _ _ _]; [exact G|rewrite Z0; reflexivity]. Qed.

  (** evaluation without a given index looks the energy up in the object's grid first *)
  Lemma held_index n E : held n -> exists i, get_lower_index (n_grid n) E = Ok i /\ brackets (g_vals (n_grid n)) E i.
  Proof. intros O. destruct (held_good n O) as [G (NB & [B1 B2] & K) _ _ _ _ _ _ _]. exact (get_lower_index_spec (g_vals (n_grid n)) NB (n_grid n) G B1 B2 K E). Qed.
  Lemma held_urr_eval n E xi : held n -> strictly_increasing (g_vals (n_grid n)) -> getR (g_vals (n_grid n)) 0 <= E -> let u := n_urr n in
    (3 <= sizeZ (u_energy u))%Z -> getR (u_energy u) 0 <= E <= getR (u_energy u) (sizeZ (u_energy u) - 1) -> xi <= 1 ->
    exists i p other, get_lower_index (n_grid n) E = Ok i /\ urr_evaluate' u E xi = Ok (Some p) /\ urr_evaluate u E i xi = Ok (Some p) /\
      0 <= elastic p /\ 0 <= inelastic p /\ 0 <= capture p /\ 0 <= fission p /\ 0 <= heating p /\ 0 <= other /\
      opt_eval (u_inelastic u) E i = Ok (inelastic p) /\ opt_eval (u_absorption u) E i = Ok other /\
      absorption p = capture p + fission p + other /\ total p = elastic p + inelastic p + absorption p /\
      (strictly_increasing (u_energy u) -> (u_loglog u = true -> 0 < getR (u_energy u) 0) ->
        exists k tl th jl jh bl bh se sc sf sh, (0 <= k < sizeZ (u_energy u) - 1)%Z /\ getR (u_energy u) k <= E <= getR (u_energy u) (k + 1) /\
          atZ (u_ptables u) k = Ok tl /\ atZ (u_ptables u) (k + 1) = Ok th /\ in_band (pt_cdf tl) xi jl /\ in_band (pt_cdf th) xi jh /\
          atZ (pt_bands tl) jl = Ok bl /\ atZ (pt_bands th) jh = Ok bh /\
          xs_eval_i (u_elastic u) E i = Ok se /\ xs_eval_i (u_capture u) E i = Ok sc /\ xs_eval_i (u_fission u) E i = Ok sf /\ xs_eval_i (u_heating u) E i = Ok sh /\
          elastic p = partial_value u E k bl bh b_elastic se /\ capture p = partial_value u E k bl bh b_capture sc /\
          fission p = partial_value u E k bl bh b_fission sf /\ heating p = partial_value u E k bl bh b_heating sh).
  Proof.
    intros O SI HE u L R X. destruct (held_index n E O) as (i & Ei & Br). pose proof (held_urr n O) as UO. pose proof (ng_grid n (held_good n O)) as G.
    destruct (urr_eval_inside (n_grid n) u E i xi G SI UO Br HE L R X) as (p & other & E1 & Rest). exists i, p, other. split; [exact Ei|]. split; [|split; [exact E1|exact Rest]].
    unfold urr_evaluate'. unfold u at 2; rewrite (elastic_grid n O), Ei. cbn [bind]. fold u. rewrite E1. unfold urr_valid. destruct (2 <? sizeZ (u_energy u))%Z eqn:Q; [reflexivity|lia].
  Qed.
  (** every table of a held object: same band count, cdf increasing up to rounding and ending at one, bands nonnegative *)
  Lemma held_tables n : held n -> exists m, length (u_ptables (n_urr n)) = length (u_energy (n_urr n)) /\ Forall (ptable_ok m) (u_ptables (n_urr n)).
  Proof. intros O. exact (uo_tables _ _ (held_urr n O)). Qed.
End Neutron.
