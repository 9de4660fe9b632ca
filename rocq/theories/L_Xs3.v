(** * Cross sections described by what they were built from *)
From Verif Require Import Base NumR L_Search L_SearchR M_Grid S_Grid L_Grid L_Xs L_Xs2.
From Coq Require Import ZifyBool ZifyNat.
Local Open Scope R_scope.

Lemma built_ok vals NB sig idx x : energy_grid vals -> bins_ok NB -> (0 <= idx < 2 ^ 32)%Z -> built vals NB sig idx x ->
  xs_ok x /\ g_vals (x_grid x) = vals /\ x_vals x = sig /\ x_index x = idx /\ hashed (x_grid x) vals NB /\ nonneg sig /\
  (idx < sizeZ vals)%Z /\ sizeZ sig = (sizeZ vals - idx)%Z.
Proof.
  intros G [N1 N2] I (g & Eg & Ex). destruct (make_grid_ok vals NB G N1) as (g' & Eg' & _ & H). rewrite Eg in Eg'. injection Eg' as <-.
  assert (V := h_vals _ _ _ H). assert (G' : grid_ok (g_vals g)) by (rewrite V; exact G).
  destruct (make_xs_spec sig g idx G' I) as [[(C1 & C2 & C3) (x' & Ex' & X1 & X2 & X3 & X4)]|[_ Ex']]; rewrite Ex in Ex'; [injection Ex' as <-|discriminate].
  rewrite X2, X3, X4, V in *. repeat (split; [first [assumption|reflexivity]|]). assumption.
Qed.
Lemma built_index vals NB sig idx x E : energy_grid vals -> bins_ok NB -> (0 <= idx < 2 ^ 32)%Z -> built vals NB sig idx x ->
  exists i, @get_lower_index R NumR (x_grid x) E = Ok i /\ lower_index vals E i.
Proof.
  intros G N I B. destruct (built_ok vals NB sig idx x G N I B) as (X & V & _ & _ & H & _).
  exact (get_lower_index_spec vals NB (x_grid x) G (proj1 N) (proj2 N) H E).
Qed.
Lemma built_exists vals NB sig idx : energy_grid vals -> bins_ok NB -> (0 <= idx < sizeZ vals)%Z -> sizeZ sig = (sizeZ vals - idx)%Z -> nonneg sig ->
  exists x, built vals NB sig idx x.
Proof.
  intros G [N1 N2] I S P. destruct (make_grid_ok vals NB G N1) as (g & Eg & _ & H). assert (V := h_vals _ _ _ H).
  destruct G as (G1 & G2).
  destruct (make_xs_spec sig g idx) as [[_ (x & Ex & _)]|[C _]]; [rewrite V; split; assumption|lia|exists x, g; auto|].
  exfalso. apply C. rewrite V. split; [lia|split; [exact P|lia]].
Qed.
Lemma bins_default : bins_ok (Z.to_nat 8192).
Proof. unfold bins_ok. lia. Qed.
(** a cross section is rejected exactly when its data are inconsistent *)
Lemma xs_rejected vals NB sig idx g : energy_grid vals -> bins_ok NB -> (0 <= idx < 2 ^ 32)%Z -> make_grid vals NB = Ok g ->
  (~ ((idx < sizeZ vals)%Z /\ nonneg sig /\ sizeZ sig = (sizeZ vals - idx)%Z) <-> @make_xs R NumR sig g idx = Throw).
Proof.
  intros G [N1 N2] I Eg. destruct (make_grid_ok vals NB G N1) as (g' & Eg' & _ & H). rewrite Eg in Eg'. injection Eg' as <-.
  assert (V := h_vals _ _ _ H). assert (G' : grid_ok (g_vals g)) by (rewrite V; exact G).
  destruct (make_xs_spec sig g idx G' I) as [[C (x & Ex & _)]|[C Ex]]; rewrite V in C; rewrite Ex; [|tauto].
  split; [tauto|discriminate].
Qed.
(** example grid *)
Lemma gex_bins : bins_ok 4. Proof. unfold bins_ok; lia. Qed.
