(** * What the Tabulated1D constructor accepts *)
From Coq Require Import Reals Lra Lia List ZifyBool ZifyNat.
From Verif Require Import Base NumR M_Interp M_Tab1D L_Search L_SearchR S_TabCtor. Import ListNotations.
Local Open Scope R_scope.

Lemma sign_change_spec (l : list R) : l <> [] -> exists b, has_sign_change l = Ok b /\ (b = false <-> one_sign l).
Proof.
  destruct l as [|a l]; [congruence|intros _]. eexists. split; [reflexivity|]. rewrite <- Bool.not_true_iff_false, existsb_exists. change (@nsignbit R NumR) with (fun x => Rltb x 0). cbv beta. unfold one_sign. split.
  - intros H. destruct (Rlt_dec a 0) as [S|S]; [right|left]; intros v Hv; apply Rnot_lt_le || apply Rnot_le_lt; intros C; apply H; exists v; (split; [exact Hv|]).
    + rewrite (proj2 (Rltb_true a 0)) by lra. rewrite (proj2 (Rltb_false v 0)) by lra. reflexivity.
    + rewrite (proj2 (Rltb_true v 0)) by lra. rewrite (proj2 (Rltb_false a 0)) by lra. reflexivity.
  - intros [H|H] (v & Hv & E); pose proof (H v Hv); pose proof (H a (or_introl eq_refl)).
    + rewrite (proj2 (Rltb_false a 0)) in E by lra. rewrite (proj2 (Rltb_false v 0)) in E by lra. discriminate.
    + rewrite (proj2 (Rltb_true a 0)) in E by lra. rewrite (proj2 (Rltb_true v 0)) in E by lra. discriminate.
Qed.
Lemma adj_cons (a b : R) l : (forall k, (0 <= k)%Z -> (k + 1 < sizeZ (a :: b :: l))%Z -> getR (a :: b :: l) k <> getR (a :: b :: l) (k + 1)) <->
  a <> b /\ forall k, (0 <= k)%Z -> (k + 1 < sizeZ (b :: l))%Z -> getR (b :: l) k <> getR (b :: l) (k + 1).
Proof.
  assert (G : forall k, (0 <= k)%Z -> getR (a :: b :: l) (k + 1) = getR (b :: l) k) by (intros k Hk; unfold getR; replace (Z.to_nat (k + 1)) with (S (Z.to_nat k)) by lia; reflexivity).
  split.
  - intros H. split; [apply (H 0%Z); unfold sizeZ; cbn [length]; lia|]. intros k K1 K2. rewrite <- (G k), <- (G (k + 1)%Z) by lia. apply H; unfold sizeZ in *; cbn [length] in *; lia.
  - intros [H0 H] k K1 K2. destruct (Z.eq_dec k 0) as [->|N]; [exact H0|]. replace k with ((k - 1) + 1)%Z by lia. rewrite !G by lia. apply H; unfold sizeZ in *; cbn [length] in *; lia.
Qed.
Lemma adjacent_spec (l : list R) : has_adjacent_equal l = false <-> forall k, (0 <= k)%Z -> (k + 1 < sizeZ l)%Z -> getR l k <> getR l (k + 1).
Proof.
  induction l as [|a [|b l] IH].
  - split; [intros _ k K1 K2; unfold sizeZ in K2; cbn in K2; lia|reflexivity].
  - split; [intros _ k K1 K2; unfold sizeZ in K2; cbn in K2; lia|reflexivity].
  - rewrite adj_cons, <- IH. change (has_adjacent_equal (a :: b :: l)) with (Reqb a b || has_adjacent_equal (b :: l))%bool. rewrite Bool.orb_false_iff, Reqb_false. reflexivity.
Qed.
Lemma slice_all (l : list R) : (0 <= sizeZ l)%Z -> slice l 0 (sizeZ l) = Ok l.
Proof.
  intros H. unfold slice. rewrite (proj2 (Z.leb_le 0 0)), (proj2 (Z.leb_le 0 _) H), (proj2 (Z.leb_le (sizeZ l) _)) by lia. cbn [andb]. rewrite Z.sub_0_r. unfold sizeZ. rewrite Nat2Z.id. cbn [Z.to_nat skipn]. rewrite firstn_all. reflexivity.
Qed.
Lemma make_range_accepts i (x y : list R) : length x = length y -> x <> [] -> is_sorted x = true ->
  (make_range i x y = Ok (mkRange i x y) /\ grid_ok i x y) \/ (make_range i x y = Throw /\ ~ grid_ok i x y).
Proof.
  intros L Nx S. assert (Ny : y <> []) by (destruct x, y; cbn in *; congruence). unfold make_range. rewrite L, Nat.eqb_refl. assert (Nat.eqb (length y) 0 = false) as -> by (destruct y; [congruence|reflexivity]). rewrite S. cbn [guard negb bind].
  destruct (sign_change_spec x Nx) as (bx & Bx & Cx). destruct (sign_change_spec y Ny) as (byy & By & Cy). destruct i; cbn [verify_x_grid verify_y_grid grid_ok]; rewrite ?Bx, ?By; cbn [bind].
  - pose proof (adjacent_spec x) as A. destruct (has_adjacent_equal x); cbn; [right|left]; (split; [reflexivity|]); [intros C; apply A in C; discriminate|apply A; reflexivity].
  - rewrite S. left. split; [reflexivity|exact I].
  - destruct bx; cbn; [right|left]; (split; [reflexivity|]); [intros C; apply Cx in C; discriminate|apply Cx; reflexivity].
  - destruct byy; cbn; [right|left]; (split; [reflexivity|]); [intros C; apply Cy in C; discriminate|apply Cy; reflexivity].
  - destruct bx; cbn; [right; split; [reflexivity|]; intros [C _]; apply Cx in C; discriminate|]. destruct byy; cbn; [right; split; [reflexivity|]; intros [_ C]; apply Cy in C; discriminate|]. left. split; [reflexivity|]. split; [apply Cx|apply Cy]; reflexivity.
Qed.
Lemma make_tab1_accepts i (x y : list R) : (sizeZ x < 2 ^ 32)%Z ->
  ((exists t, make_tab1 i x y = Ok t) <-> length x = length y /\ x <> [] /\ increasing x /\ grid_ok i x y) /\ ((exists t, make_tab1 i x y = Ok t) \/ make_tab1 i x y = Throw).
Proof.
  intros Hs. assert (P : (0 <= sizeZ x)%Z) by (unfold sizeZ; lia). unfold make_tab1. destruct (Nat.eqb (length x) (length y)) eqn:L; cbn [guard bind].
  2:{ apply Nat.eqb_neq in L. split; [|right; reflexivity]. split; [intros [t H]; discriminate|intros H; exfalso; tauto]. }
  apply Nat.eqb_eq in L. destruct (is_sorted x) eqn:S; cbn [guard bind].
  2:{ split; [|right; reflexivity]. split; [intros [t H]; discriminate|intros (_ & _ & H & _)]. apply is_sorted_increasing in H. congruence. }
  rewrite Z.mod_small by lia. rewrite (slice_all x P). cbn [bind]. replace (sizeZ x) with (sizeZ y) by (unfold sizeZ; lia). rewrite (slice_all y) by (unfold sizeZ; lia). cbn [bind].
  destruct x as [|x0 xs].
  - destruct y; [|discriminate]. cbn. split; [|right; reflexivity]. split; [intros [t H]; discriminate|intros (_ & H & _)]. congruence.
  - destruct (make_range_accepts i (x0 :: xs) y L ltac:(discriminate) S) as [[-> G]|[-> G]]; cbn [bind].
    + split; [|left; eexists; reflexivity]. split; [intros _|intros _; eexists; reflexivity]. split; [exact L|]. split; [discriminate|]. split; [apply is_sorted_increasing; exact S|exact G].
    + split; [|right; reflexivity]. split; [intros [t H]; discriminate|intros H; exfalso; tauto].
Qed.
