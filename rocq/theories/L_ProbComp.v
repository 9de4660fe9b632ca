(** * Laws of combined samplers: one after the other, and a choice of one of several *)
From Coq Require Import Reals Lra Lia List ZifyBool ZifyNat. From Coquelicot Require Import Coquelicot.
From Verif Require Import Base NumR S_Prob S_Mix L_Legendre L_Prob L_ProbEv L_ProbLaw L_ProbLoop S_Replay L_Replay.
Import ListNotations.
Local Open Scope R_scope.
Local Notation iR := (@is_RInt R_NormedModule).

Lemma replay_steady {A} (s : rand R A) : replayable s -> steady s.
Proof. intros H ds v r _ E. specialize (H ds). rewrite E in H. destruct H as (u & -> & H). exists u. split; [reflexivity|]. intros r' _. apply H. Qed.
Definition both {A B C} (s : rand R A) (t : rand R B) (h : A -> B -> C) : rand R C := rlet! v := s in rlet! w := t in rret (h v w).
Lemma both_ok {A B C} (s : rand R A) (t : rand R B) (h : A -> B -> C) ds x r : both s t h ds = Ok (x, r) <-> exists v w d, s ds = Ok (v, d) /\ t d = Ok (w, r) /\ x = h v w.
Proof.
  unfold both, rbind, rret. split.
  - destruct (s ds) as [[v d]| | |]; try discriminate. destruct (t d) as [[w r2]| | |] eqn:E; try discriminate. intros H. assert (r2 = r /\ h v w = x) as [-> <-] by (split; congruence). exists v, w, d. auto.
  - intros (v & w & d & -> & -> & ->). reflexivity.
Qed.
Lemma ret_mono {A} (t : rand R A) C l : replayable t -> ret t C l -> forall m, ret t C (l ++ m).
Proof. intros H (v & r & E & Hv) m. pose proof (H l) as Q. rewrite E in Q. destruct Q as (u & -> & Q). exists v, (r ++ m). split; [rewrite <- app_assoc; apply Q|exact Hv]. Qed.
Lemma prob_mono {A} (t : rand R A) C (p : nat -> R) : replayable t -> (forall k, prob k (ret t C) (p k)) -> forall k, p k <= p (S k).
Proof.
  intros Rt H k. pose proof (prob_firstn k 1 _ _ (H k)) as F. rewrite Nat.add_1_r in F. destruct F as (f & If & Ef), (H (S k)) as (g & Ig & Eg). apply (expect_le _ _ _ _ _ Ef Eg). intros l Hl.
  destruct (If l Hl) as [[a ->]|[a ->]], (Ig l Hl) as [[b ->]|[b ->]]; try lra. exfalso. apply b. rewrite <- (firstn_skipn k l). apply ret_mono; assumption.
Qed.
Lemma law_both {A B C} (s : rand R A) (t : rand R B) (h : A -> B -> C) (X : A -> Prop) (Y : B -> Prop) (Z : C -> Prop) p q : replayable s -> replayable t ->
  (forall v w, Z (h v w) <-> X v /\ Y w) -> law s X p -> law t Y q -> law (both s t h) Z (p * q).
Proof.
  intros Rs Rt HZ (ps & Hs & Ls) (pt & Ht & Lt). pose proof (replay_steady s Rs) as St.
  destruct (s []) as [[v0 r0]| | |] eqn:E0.
  { assert (r0 = []) as ->. { pose proof (Rs []) as Q. rewrite E0 in Q. destruct Q as (u & Q & _). destruct u, r0; try discriminate. reflexivity. }
    assert (S0 : forall ds, s ds = Ok (v0, ds)). { intros ds. pose proof (Rs []) as Q. rewrite E0 in Q. destruct Q as (u & Eu & Q). destruct u; [|discriminate]. apply (Q ds). }
    assert (D : (X v0 /\ p = 1) \/ (~ X v0 /\ p = 0)).
    { assert (K : forall k, (X v0 /\ ps k = 1) \/ (~ X v0 /\ ps k = 0)).
      { intros k. destruct (Hs k) as (f & If & Ef). assert (Q : (X v0) \/ ~ X v0). { destruct (If (repeat (1/2) k)) as [[(v & r & E & V) _]|[V _]]; [split; [apply repeat_length|apply Forall_forall; intros x Ix; apply repeat_spec in Ix; subst; lra]|rewrite S0 in E; injection E as <- <-; tauto|].
        right. intros V0. apply V. exists v0, (repeat (1/2) k). split; [apply S0|exact V0]. }
        destruct Q as [Q|Q]; [left|right]; (split; [exact Q|]).
        - apply (prob_unique k _ _ _ (Hs k)). apply prob_always. intros l _. exists v0, l. split; [apply S0|exact Q].
        - apply (prob_unique k _ _ _ (Hs k)). apply prob_never. intros l _ (v & r & E & V). rewrite S0 in E. injection E as <- <-. contradiction. }
      destruct (K O) as [[V _]|[V _]]; [left|right]; (split; [exact V|]).
      - assert (Q : is_lim_seq ps 1) by (apply (is_lim_seq_ext (fun _ => 1)); [intros k; destruct (K k) as [[_ E]|[W _]]; [symmetry; exact E|contradiction]|apply is_lim_seq_const]).
        apply is_lim_seq_unique in Q. apply is_lim_seq_unique in Ls. rewrite Q in Ls. congruence.
      - assert (Q : is_lim_seq ps 0) by (apply (is_lim_seq_ext (fun _ => 0)); [intros k; destruct (K k) as [[W _]|[_ E]]; [contradiction|symmetry; exact E]|apply is_lim_seq_const]).
        apply is_lim_seq_unique in Q. apply is_lim_seq_unique in Ls. rewrite Q in Ls. congruence. }
    assert (S1 : forall ds x r, both s t h ds = Ok (x, r) <-> exists w, t ds = Ok (w, r) /\ x = h v0 w).
    { intros ds x r. rewrite both_ok. split; [intros (v & w & d & E & Et & ->); rewrite S0 in E; assert (v0 = v /\ ds = d) as [<- <-] by (split; congruence); eauto|intros (w & Et & ->); exists v0, w, ds; auto]. }
    exists (fun k => p * pt k). split; [|apply (is_lim_seq_scal_l pt p q Lt)]. intros k. destruct D as [[V ->]|[V ->]].
    - eapply prob_val; [|eapply prob_ext; [|exact (Ht k)]]; [ring|]. intros l _. split.
      + intros (w & r & E & W). exists (h v0 w), r. split; [apply S1; eauto|apply HZ; tauto].
      + intros (x & r & E & W). apply S1 in E as (w & E & ->). exists w, r. split; [exact E|apply HZ in W; tauto].
    - eapply prob_val; [|apply prob_never]; [ring|]. intros l _ (x & r & E & W). apply S1 in E as (w & _ & ->). apply HZ in W. tauto. }
  all: assert (As : asks s) by (intros v r E; rewrite E0 in E; discriminate).
  all: destruct (prob_exact s X ps St As Hs) as [P0 Hc].
  all: set (c := fun j => ps (S j) - ps j).
  all: exists (fun k => match k with O => 0 | S m => sum_f_R0 (fun j => c j * pt (m - j)%nat) m end); split.
  all: try (apply is_lim_seq_incr_1; apply conv_lim; [intros j; unfold c; destruct (prob_bounds _ _ _ (Hc j)); assumption|intros j; destruct (prob_bounds _ _ _ (Ht j)); assumption|exact (prob_mono t Y pt Rt Ht)| |exact Lt];
    apply (is_lim_seq_ext (fun k => ps (S k))); [intros k; unfold c; induction k as [|k IH]; cbn [sum_f_R0]; [rewrite P0; ring|rewrite <- IH; ring]|apply is_lim_seq_incr_1 in Ls; exact Ls]).
  all: intros [|k]; [apply prob_never; intros l [Hl _] (v & r & E & _); destruct l; [|discriminate]; apply both_ok in E as (v1 & w & d & E & _); exact (As _ _ E)|].
  all: eapply prob_ext; [|exact (prob_conv (exact s X) (ret t Y) c pt k Hc (fun j _ => Ht j) (fun l i j O Hi Hj E F => exact_unique s _ _ l i j St O Hi Hj E F))].
  all: intros l Hl; pose proof (ud_open _ _ Hl) as O; destruct Hl as [Ll _]; split.
  all: try (intros (j & Hj & (v & E & V) & (w & r & Et & W)); exists (h v w), r; split; [apply both_ok; exists v, w, (skipn (S j) l); split; [|split; [exact Et|reflexivity]]|apply HZ; tauto];
    pose proof (Rs (firstn (S j) l)) as Q; rewrite E in Q; destruct Q as (u & Eu & Q); rewrite app_nil_r in Eu; rewrite <- (firstn_skipn (S j) l) at 1; rewrite Eu; apply Q).
  all: intros (x & r & E & W); apply both_ok in E as (v & w & d & E & Et & ->); apply HZ in W as [V W]; pose proof (Rs l) as Q; rewrite E in Q; destruct Q as (u & Eu & Q).
  all: destruct u as [|z u]; [exfalso; exact (As _ _ (Q []))|].
  all: exists (length u); assert (length u <= k)%nat as Lu by (apply (f_equal (@length R)) in Eu; rewrite app_length in Eu; cbn in Eu; lia); split; [exact Lu|]; rewrite Eu; change (S (length u)) with (length (z :: u)); rewrite firstn_app, Nat.sub_diag, firstn_O, firstn_all, app_nil_r, skipn_app, Nat.sub_diag, skipn_all.
  all: split; [exists v; split; [specialize (Q []); rewrite app_nil_r in Q; exact Q|exact V]|exists w, r; split; [exact Et|exact W]].
Qed.

(** ** a choice with one random number *)
Fixpoint pick {A} (l : list (R * rand R A)) (last : rand R A) (s0 x : R) : rand R A :=
  match l with
  | [] => last
  | (p, s) :: l' => if Rlt_dec x (s0 + p) then s else pick l' last (s0 + p) x
  end.
Fixpoint pickr (l q : list R) (last s0 x : R) : R :=
  match l, q with
  | p :: l', v :: q' => if Rlt_dec x (s0 + p) then v else pickr l' q' last (s0 + p) x
  | _, _ => last
  end.
Lemma total_pos l : Forall (fun p => 0 <= p) l -> 0 <= total l. Proof. induction 1; cbn; lra. Qed.
Lemma pickr_int last : forall l q s0, length l = length q -> Forall (fun p => 0 <= p) l -> s0 + total l <= 1 -> iR (pickr l q last s0) s0 1 (weigh l q + (1 - s0 - total l) * last).
Proof.
  induction l as [|p l IH]; intros q s0 L F S; destruct q as [|v q]; try discriminate.
  - cbn in *. eapply iR_eq; [|apply iR_const_on with (u := last)]; [ring|lra|intros x _; reflexivity].
  - apply Forall_cons_iff in F as [P F]. cbn [total] in S. pose proof (total_pos l F) as TP. cbn [weigh total]. apply iR_eq with ((s0 + p - s0) * v + (weigh l q + (1 - (s0 + p) - total l) * last)); [ring|]. eapply iR_chasles.
    + apply iR_const_on; [lra|]. intros x Hx. cbn. destruct (Rlt_dec x (s0 + p)); [reflexivity|lra].
    + eapply is_RInt_ext; [|apply (IH q (s0 + p))]; [|cbn in L; lia|exact F|lra]. intros x Hx. cbn. rewrite Rmin_left, Rmax_right in Hx by lra. destruct (Rlt_dec x (s0 + p)); [lra|reflexivity].
Qed.
Lemma weigh_lim (ps : list R) : forall (qs : list R) (f : list (nat -> R)), Forall2 (fun (u : nat -> R) (q : R) => is_lim_seq u q) f qs -> is_lim_seq (fun k => weigh ps (map (fun u => u k) f)) (weigh ps qs).
Proof.
  induction ps as [|p ps IH]; intros qs f H; [cbn; apply is_lim_seq_const|]. destruct H as [|u q f qs Hu H]; cbn [weigh map]; [apply is_lim_seq_const|].
  apply (is_lim_seq_plus' (fun k => p * u k)); [apply (is_lim_seq_scal_l u p q Hu)|apply IH, H].
Qed.
Lemma pick_prob {A} (B : A -> Prop) m last fl : forall (l : list (R * rand R A)) (fs : list (list R -> R)) s0 x,
  Forall2 (fun d f => forall t, unit_draws m t -> (ret (snd d) B t /\ f t = 1) \/ (~ ret (snd d) B t /\ f t = 0)) l fs ->
  (forall t, unit_draws m t -> (ret last B t /\ fl t = 1) \/ (~ ret last B t /\ fl t = 0)) ->
  exists g : list R -> R, (forall t, unit_draws m t -> (ret (pick l last s0 x) B t /\ g t = 1) \/ (~ ret (pick l last s0 x) B t /\ g t = 0)) /\
    forall vs vl, Forall2 (expect m) fs vs -> expect m fl vl -> expect m g (pickr (map fst l) vs vl s0 x).
Proof.
  induction l as [|[p s] l IH]; intros fs s0 x H HL.
  - exists fl. split; [exact HL|]. intros vs vl _ E. cbn. exact E.
  - inversion H as [|a f l' fs' Hf HF]; subst. cbn [snd] in Hf. cbn [pick]. destruct (Rlt_dec x (s0 + p)) as [Q|Q].
    + exists f. split; [exact Hf|]. intros vs vl F E. inversion F as [|a v b vs' Fv FF]; subst. cbn. destruct (Rlt_dec x (s0 + p)); [exact Fv|contradiction].
    + destruct (IH fs' (s0 + p) x HF HL) as (g & G1 & G2). exists g. split; [exact G1|]. intros vs vl F E. inversion F as [|a v b vs' Fv FF]; subst. cbn. destruct (Rlt_dec x (s0 + p)); [contradiction|]. apply G2; assumption.
Qed.
Lemma law_pick {A} (s : rand R A) (l : list (R * rand R A)) (last : rand R A) (B : A -> Prop) (qs : list R) (ql : R) : asks s -> Forall (fun p => 0 <= p) (map fst l) -> total (map fst l) <= 1 ->
  (forall x ds, 0 < x < 1 -> open01 ds -> s (x :: ds) = pick l last 0 x ds) -> Forall2 (fun d q => law (snd d) B q) l qs -> law last B ql -> law s B (weigh (map fst l) qs + (1 - total (map fst l)) * ql).
Proof.
  intros As Pos Tot S HL (pl & Hl & Ll).
  assert (G : exists f : list (nat -> R), Forall2 (fun (u : nat -> R) (q : R) => is_lim_seq u q) f qs /\ Forall2 (fun d u => forall k, prob k (ret (snd d) B) (u k)) l f).
  { clear - HL. induction HL as [|d q l qs (u & Hu & Lu) H (f & F1 & F2)]; [exists []; split; constructor|]. exists (u :: f). split; constructor; assumption. }
  destruct G as (f & F1 & F2). assert (Lf : length (map fst l) = length f) by (rewrite map_length; clear - F2; induction F2; cbn; congruence).
  exists (fun k => match k with O => 0 | S m => weigh (map fst l) (map (fun u => u m) f) + (1 - total (map fst l)) * pl m end). split.
  - intros [|m]; [apply prob_never; intros t [Ht _] (v & r & E & _); destruct t; [|discriminate]; exact (As _ _ E)|].
    assert (G : exists fs : list (list R -> R), Forall2 (fun d g => forall t, unit_draws m t -> (ret (snd d) B t /\ g t = 1) \/ (~ ret (snd d) B t /\ g t = 0)) l fs /\ Forall2 (expect m) fs (map (fun u => u m) f)).
    { clear - F2. induction F2 as [|d u l f Hd H (fs & I1 & I2)]; [exists []; split; constructor|]. destruct (Hd m) as (g & Ig & Eg). exists (g :: fs). cbn. split; constructor; assumption. }
    destruct G as (fs & I1 & I2). destruct (Hl m) as (fl & Il & El).
    assert (Ch : forall x, exists v : list R -> R, (forall t, unit_draws m t -> (ret (pick l last 0 x) B t /\ v t = 1) \/ (~ ret (pick l last 0 x) B t /\ v t = 0)) /\ expect m v (pickr (map fst l) (map (fun u => u m) f) (pl m) 0 x)).
    { intros x. destruct (pick_prob B m last fl l fs 0 x I1 Il) as (g & G1 & G2). exists g. split; [exact G1|]. apply G2; assumption. }
    assert (pickd : forall x t, unit_draws m t -> {ret (pick l last 0 x) B t} + {~ ret (pick l last 0 x) B t}).
    { clear - I1 Il. assert (K : forall l0 fs0, Forall2 (fun d g => forall t, unit_draws m t -> (ret (snd d) B t /\ g t = 1) \/ (~ ret (snd d) B t /\ g t = 0)) l0 fs0 -> forall s0 x t, unit_draws m t -> {ret (pick l0 last s0 x) B t} + {~ ret (pick l0 last s0 x) B t}).
      { induction l0 as [|[p s] l0 IH]; intros fs0 H s0 x t Ht.
        - cbn. destruct (Req_EM_T (fl t) 1) as [E|E]; [left|right]; destruct (Il t Ht) as [[a b]|[a b]]; try assumption; exfalso; rewrite b in E; lra.
        - cbn [pick]. destruct fs0 as [|g fs0]; [exfalso; inversion H|]. destruct (Rlt_dec x (s0 + p)).
          + destruct (Req_EM_T (g t) 1) as [E|E]; [left|right]; inversion H as [|a b c d Hf HF]; subst; cbn [snd] in Hf; destruct (Hf t Ht) as [[u w]|[u w]]; try assumption; exfalso; rewrite w in E; lra.
          + apply (IH fs0); [inversion H; assumption|exact Ht]. }
      intros x t Ht. exact (K l fs I1 0 x t Ht). }
    assert (udec : forall n (t : list R), {unit_draws n t} + {~ unit_draws n t}).
    { intros n t. destruct (Nat.eq_dec (length t) n) as [E|E]; [|right; intros [Q _]; contradiction]. destruct (Forall_dec (fun x => 0 < x < 1) (fun x => match Rlt_dec 0 x, Rlt_dec x 1 with left a, left b => left (conj a b) | right a, _ => right (fun c => a (proj1 c)) | _, right b => right (fun c => b (proj2 c)) end) t) as [F|F]; [left; split; assumption|right; intros [_ Q]; contradiction]. }
    exists (fun t => match t with x :: t' => match udec m t' with left U => if pickd x t' U then 1 else 0 | right _ => 0 end | _ => 0 end). split.
    + intros t Ht. destruct t as [|x t]; [destruct Ht; discriminate|]. apply ud_cons in Ht as [Hx Ht]. destruct (udec m t) as [U|U]; [|contradiction]. rewrite (S x t Hx (proj2 Ht)). destruct (pickd x t U) as [D|D]; [left|right]; (split; [exact D|reflexivity]).
    + exists (pickr (map fst l) (map (fun u => u m) f) (pl m) 0). split.
      * intros x Hx. destruct (Ch x) as (v & V & Ev). eapply expect_ext; [|exact Ev]. intros t Ht. destruct (udec m t) as [U|U]; [|contradiction]. destruct (pickd x t U) as [D|D], (V t Ht) as [[a ->]|[a ->]]; try reflexivity; contradiction.
      * eapply iR_eq; [|apply pickr_int]; [ring|rewrite (map_length _ f); exact Lf|exact Pos|lra].
  - apply is_lim_seq_incr_1. apply is_lim_seq_plus'; [apply weigh_lim, F1|apply (is_lim_seq_scal_l pl (1 - total (map fst l)) ql Ll)].
Qed.
