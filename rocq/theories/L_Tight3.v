(** * Small pinned facts, continued *)
From Coq Require Import Reals Lra Lia List Ascii String ZifyBool ZifyNat.
From Verif Require Import Base NumR M_Grid M_Library.
Import ListNotations.
Local Open Scope R_scope.

Lemma trunc_u32_iff : forall (x : R) z, trunc_u32 x = Ok z <-> ((0 <= z < 2 ^ 32)%Z /\ IZR z <= x < IZR z + 1) \/ (z = 0%Z /\ - (1) < x < 0).
Proof.
  intros x z. unfold trunc_u32. cbn [nfloor NumR]. pose proof (base_Int_part x) as [I1 I2]. 
  assert (U : forall k, IZR k <= x < IZR k + 1 -> Int_part x = k).
  { intros k H. assert (IZR k < IZR (Int_part x + 1)) by (rewrite plus_IZR; lra). assert (IZR (Int_part x) < IZR (k + 1)) by (rewrite plus_IZR; lra). apply lt_IZR in H0, H1. lia. }
  set (k := Int_part x) in *. destruct (Z.leb_spec 0 k) as [P|P].
  - apply IZR_le in P as P'. destruct (Z.ltb_spec k (2 ^ 32)) as [L|L].
    + split; [intros H; injection H as <-; left; split; [lia|lra]|]. intros [[H1 H2]|[-> H2]]; [rewrite (U z H2); reflexivity|lra].
    + split; [discriminate|]. intros [[H1 H2]|[-> H2]]; [pose proof (U z H2); lia|lra].
  - rnum. assert (IZR k <= -1) by (apply IZR_le; lia). destruct (Rltb_spec (- (1)) x) as [L|L].
    + split; [intros H'; injection H' as <-; right; split; [reflexivity|]|].
      * split; [lra|]. lra.
      * intros [[H1 H2]|[-> H2]]; [|reflexivity]. assert (0 <= IZR z) by (apply IZR_le; lia). lra.
    + split; [discriminate|]. intros [[H1 H2]|[-> H2]]; [|lra]. assert (0 <= IZR z) by (apply IZR_le; lia). lra.
Qed.

Lemma tsl_characters c : is_tsl_char c = true <-> In c (list_ascii_of_string "ABCDEFGHIJKLMNOPQRSTUVWXYZabcdefghijklmnopqrstuvwxyz0123456789_-").
Proof.
  split.
  - destruct c as [[] [] [] [] [] [] [] []]; vm_compute; intros H; try discriminate H; repeat (first [left; reflexivity|right]).
  - intros H. cbn [list_ascii_of_string In] in H. repeat (destruct H as [<-|H]; [reflexivity|]). contradiction.
Qed.
