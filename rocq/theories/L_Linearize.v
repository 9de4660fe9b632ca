(** * linearize: partial correctness and termination, over R *)
From Verif Require Import Base NumR M_Interp M_Tab1D L_Search L_SearchR.
From Coq Require Import ZifyBool ZifyNat.
Local Open Scope R_scope.

Section Lin.
  Variables (adj : R -> R -> bool) (f : R -> R) (tol : R).

  (** the acceptance test of one interval *)
  Definition rel (a b : R) : R := Rabs ((1 / 2 * (f a + f b) - f (1 / 2 * (a + b))) / f (1 / 2 * (a + b))).
  Definition accepted (a b : R) : Prop := adj a b = true \/ rel a b <= tol.

  Lemma size_app1 {A} (p : list A) a q : sizeZ (p ++ a :: q) = (sizeZ p + 1 + sizeZ q)%Z.
  Proof. unfold sizeZ. rewrite app_length. cbn [length]. lia. Qed.
  Lemma insert_at_zip {A} (p : list A) a m q : insert_at (p ++ a :: q) (sizeZ p + 1) m = p ++ a :: m :: q.
  Proof.
    unfold insert_at, sizeZ. replace (Z.to_nat (Z.of_nat (length p) + 1)) with (length p + 1)%nat by lia.
    rewrite firstn_app, skipn_app.
    rewrite firstn_all2 by lia. rewrite skipn_all2 by lia.
    replace (length p + 1 - length p)%nat with 1%nat by lia. cbn. rewrite <- app_assoc. reflexivity.
  Qed.
  Lemma size_m1_zip {A} (p : list A) a q : size_m1 (p ++ a :: q) = (sizeZ p + sizeZ q)%Z.
  Proof.
    unfold size_m1. rewrite size_app1. pose proof (sizeZ_nonneg p). pose proof (sizeZ_nonneg q).
    replace (sizeZ p + 1 + sizeZ q =? 0)%Z with false by lia. lia.
  Qed.
  Lemma at_zip0 {A} (p : list A) a q : atZ (p ++ a :: q) (sizeZ p) = Ok a.
  Proof.
    unfold atZ, sizeZ. replace (0 <=? Z.of_nat (length p))%Z with true by lia.
    rewrite Nat2Z.id, nth_error_app2, Nat.sub_diag by lia. reflexivity.
  Qed.
  Lemma at_zip1 {A} (p : list A) a b q : atZ (p ++ a :: b :: q) (sizeZ p + 1) = Ok b.
  Proof.
    replace (p ++ a :: b :: q) with ((p ++ [a]) ++ b :: q) by (rewrite <- app_assoc; reflexivity).
    replace (sizeZ p + 1)%Z with (sizeZ (p ++ [a])) by (rewrite size_app1; unfold sizeZ; cbn; lia).
    apply at_zip0.
  Qed.
  Lemma size_map {A B} (g : A -> B) l : sizeZ (map g l) = sizeZ l.
  Proof. unfold sizeZ. rewrite map_length. reflexivity. Qed.

  (** one iteration at an interior interval *)
  Lemma loop_step n p a b q :
    linearize_loop adj (S n) f tol (p ++ a :: b :: q) (map f (p ++ a :: b :: q)) (sizeZ p) =
    if adj a b then linearize_loop adj n f tol (p ++ a :: b :: q) (map f (p ++ a :: b :: q)) (sizeZ p + 1)
    else if Rltb tol (rel a b)
    then linearize_loop adj n f tol (p ++ a :: 1 / 2 * (a + b) :: b :: q)
           (map f (p ++ a :: 1 / 2 * (a + b) :: b :: q)) (sizeZ p)
    else linearize_loop adj n f tol (p ++ a :: b :: q) (map f (p ++ a :: b :: q)) (sizeZ p + 1).
  Proof.
    cbn [linearize_loop]. rewrite size_m1_zip, sizeZ_cons. pose proof (sizeZ_nonneg q).
    replace (sizeZ p <? sizeZ p + (sizeZ q + 1))%Z with true by lia.
    rewrite at_zip0, at_zip1; cbn [bind]. destruct (adj a b); [reflexivity|].
    rewrite !map_app. cbn [map]. rewrite <- (size_map f p). rewrite at_zip0, at_zip1; cbn [bind].
    rnum. unfold rel. destruct Rltb; [|reflexivity].
    rewrite insert_at_zip. rewrite size_map at 1. rewrite insert_at_zip.
    reflexivity.
  Qed.
  Lemma loop_end n p a :
    linearize_loop adj (S n) f tol (p ++ [a]) (map f (p ++ [a])) (sizeZ p) = Ok (p ++ [a], map f (p ++ [a])).
  Proof.
    cbn [linearize_loop]. rewrite size_m1_zip. change (sizeZ []) with 0%Z.
    replace (sizeZ p <? sizeZ p + 0)%Z with false by lia. reflexivity.
  Qed.

  (** consecutive elements of the list satisfy [Q] *)
  Fixpoint steps (Q : R -> R -> Prop) (l : list R) : Prop :=
    match l with
    | a :: t => match t with b :: _ => Q a b /\ steps Q t | [] => True end
    | [] => True
    end.
  Lemma steps_cons2 Q a b t : steps Q (a :: b :: t) <-> Q a b /\ steps Q (b :: t).
  Proof. reflexivity. Qed.
  Lemma steps_app Q p a q : steps Q (p ++ a :: q) <-> steps Q (p ++ [a]) /\ steps Q (a :: q).
  Proof.
    induction p as [|c p IH].
    - cbn [app]. cbn [steps]. tauto.
    - destruct p as [|d p].
      + cbn [app] in *. rewrite !steps_cons2. cbn [steps]. tauto.
      + change ((c :: d :: p) ++ a :: q) with (c :: d :: (p ++ a :: q)).
        change ((c :: d :: p) ++ [a]) with (c :: d :: (p ++ [a])).
        rewrite !steps_cons2. change (d :: p ++ a :: q) with ((d :: p) ++ a :: q).
        change (d :: p ++ [a]) with ((d :: p) ++ [a]). rewrite IH. tauto.
  Qed.

  Lemma loop_correct : forall n p a q x' y',
    linearize_loop adj n f tol (p ++ a :: q) (map f (p ++ a :: q)) (sizeZ p) = Ok (x', y') ->
    steps Rle (p ++ a :: q) -> steps accepted (p ++ [a]) ->
    y' = map f x' /\ steps Rle x' /\ steps accepted x' /\
    (forall v, In v (p ++ a :: q) -> In v x') /\
    (exists r, x' = p ++ a :: r /\ last (a :: r) 0 = last (a :: q) 0).
  Proof.
    induction n as [|n IH]; intros p a q x' y' H S A; [discriminate|].
    destruct q as [|b q].
    - rewrite loop_end in H. injection H as <- <-.
      split; [reflexivity|]. split; [assumption|]. split; [assumption|]. split; [auto|].
      exists []; split; reflexivity.
    - rewrite loop_step in H.
      assert (E : p ++ a :: b :: q = (p ++ [a]) ++ b :: q) by (rewrite <- app_assoc; reflexivity).
      assert (E1 : (sizeZ p + 1)%Z = sizeZ (p ++ [a])) by (rewrite size_app1; change (sizeZ []) with 0%Z; lia).
      assert (Adv : accepted a b ->
        linearize_loop adj n f tol (p ++ a :: b :: q) (map f (p ++ a :: b :: q)) (sizeZ p + 1) = Ok (x', y') ->
        y' = map f x' /\ steps Rle x' /\ steps accepted x' /\
        (forall v, In v (p ++ a :: b :: q) -> In v x') /\
        (exists r, x' = p ++ a :: r /\ last (a :: r) 0 = last (a :: b :: q) 0)).
      { intros Hab H1. rewrite E, E1 in H1. apply IH in H1.
        - destruct H1 as (-> & H2 & H3 & H4 & r & H5 & H6).
          split; [reflexivity|]. split; [assumption|]. split; [assumption|].
          split; [rewrite E; assumption|]. exists (b :: r). rewrite H5, <- app_assoc.
          split; [reflexivity|]. exact H6.
        - rewrite <- E; exact S.
        - rewrite <- app_assoc. cbn [app]. rewrite steps_app. split; [exact A|].
          rewrite steps_cons2. split; [exact Hab | exact I]. }
      destruct (adj a b) eqn:Ea.
      + apply Adv; [left; exact Ea | exact H].
      + destruct (Rltb_spec tol (rel a b)) as [L|L].
        * apply IH in H.
          -- destruct H as (-> & H2 & H3 & H4 & r & H5 & H6).
             split; [reflexivity|]. split; [assumption|]. split; [assumption|].
             split.
             { intros v Hv. apply H4. apply in_app_or in Hv. apply in_or_app.
               destruct Hv as [Hv|[Hv|Hv]]; [left; exact Hv | right; left; exact Hv | right; right; right; exact Hv]. }
             exists r. split; [exact H5 | exact H6].
          -- rewrite steps_app in *. destruct S as [S1 S2]. split; [exact S1|].
             rewrite !steps_cons2 in *. destruct S2 as [S2 S3].
             split; [lra|]. split; [lra | exact S3].
          -- exact A.
        * apply Adv; [right; exact L | exact H].
  Qed.

  (** ** termination: intervals no wider than [eps] are not split any more *)
  Variable eps : R.
  Hypothesis Heps : 0 < eps.
  Hypothesis Hadj : forall a b, 0 <= b - a <= eps -> adj a b = true.

  Lemma interval_done : forall k p a b q, 0 <= b - a <= eps * 2 ^ k ->
    exists n p', forall m,
      linearize_loop adj (n + m) f tol (p ++ a :: b :: q) (map f (p ++ a :: b :: q)) (sizeZ p) =
      linearize_loop adj m f tol (p' ++ b :: q) (map f (p' ++ b :: q)) (sizeZ p').
  Proof.
    induction k as [|k IH]; intros p a b q H.
    - exists 1%nat, (p ++ [a]). intros m. rewrite <- app_assoc. cbn [app].
      replace (sizeZ (p ++ [a])) with (sizeZ p + 1)%Z by (rewrite size_app1; change (sizeZ []) with 0%Z; lia).
      change (1 + m)%nat with (S m). rewrite loop_step, Hadj; [reflexivity|]. cbn in H; lra.
    - assert (Adv : exists p', forall m,
        linearize_loop adj m f tol (p ++ a :: b :: q) (map f (p ++ a :: b :: q)) (sizeZ p + 1) =
        linearize_loop adj m f tol (p' ++ b :: q) (map f (p' ++ b :: q)) (sizeZ p')).
      { exists (p ++ [a]). intros m. rewrite <- app_assoc. cbn [app].
        replace (sizeZ (p ++ [a])) with (sizeZ p + 1)%Z by (rewrite size_app1; change (sizeZ []) with 0%Z; lia).
        reflexivity. }
      destruct (adj a b) eqn:Ea; [|destruct (Rltb_spec tol (rel a b)) as [L|L]].
      + destruct Adv as [p' Ap]. exists 1%nat, p'. intros m. change (1 + m)%nat with (S m).
        rewrite loop_step, Ea. apply Ap.
      + set (c := 1 / 2 * (a + b)).
        assert (eps * 2 ^ S k = 2 * (eps * 2 ^ k)) as E2 by (cbn; ring).
        destruct (IH p a c (b :: q)) as (n1 & p1 & H1); [unfold c; lra|].
        destruct (IH p1 c b q) as (n2 & p2 & H2); [unfold c; lra|].
        exists (S (n1 + n2)), p2. intros m. cbn [plus]. rewrite loop_step, Ea.
        replace (Rltb tol (rel a b)) with true by (symmetry; apply Rltb_true; exact L).
        fold c. rewrite <- Nat.add_assoc. rewrite H1, H2. reflexivity.
      + destruct Adv as [p' Ap]. exists 1%nat, p'. intros m. change (1 + m)%nat with (S m).
        rewrite loop_step, Ea. replace (Rltb tol (rel a b)) with false by (symmetry; apply Rltb_false; exact L).
        apply Ap.
  Qed.

  Lemma loop_terminates : forall q p a, steps Rle (a :: q) ->
    exists n x' y', forall m, 
      linearize_loop adj (n + m) f tol (p ++ a :: q) (map f (p ++ a :: q)) (sizeZ p) = Ok (x', y').
  Proof.
    induction q as [|b q IH]; intros p a S.
    - exists 1%nat, (p ++ [a]), (map f (p ++ [a])). intros m. apply loop_end.
    - rewrite steps_cons2 in S. destruct S as [S1 S2].
      destruct (Pow_x_infinity 2) with (b := (b - a) / eps) as [k Hk]; [rewrite Rabs_pos_eq; lra|].
      specialize (Hk k (le_n _)). rewrite Rabs_pos_eq in Hk by (apply pow_le; lra).
      destruct (interval_done k p a b q) as (n1 & p1 & H1).
      { split; [lra|]. apply Rge_le in Hk.
        apply Rmult_le_compat_l with (r := eps) in Hk; [|lra].
        replace (eps * ((b - a) / eps)) with (b - a) in Hk by (field; lra). exact Hk. }
      destruct (IH p1 b S2) as (n2 & x' & y' & H2).
      exists (n1 + n2)%nat, x', y'. intros m. rewrite <- Nat.add_assoc, H1, H2. reflexivity.
  Qed.
End Lin.
