(** * Elastic objects: construction, setters, sampling *)
From Verif Require Import Base NumR L_Search M_Kin S_Kin L_Kin.
Local Open Scope R_scope.

Definition elastic_valid (e : elastic_obj R) : Prop := 0 < e_awr e /\ 0 <= e_kT e /\ 0 <= e_tar e.

Lemma K_to_MeV_sign t : (0 <= @K_to_MeV R NumR t <-> 0 <= t) /\ (@K_to_MeV R NumR t < 0 <-> t < 0).
Proof. unfold K_to_MeV. rnum. split; split; intros; lra. Qed.

Lemma make_elastic_cases brd ang awr temp u tar :
  let c := 0 < awr /\ 0 <= temp /\ 0 <= tar /\ brd <> None in
  (c /\ exists e, @make_elastic R NumR brd ang awr temp u tar = Ok e /\ elastic_valid e) \/
  (~ c /\ make_elastic brd ang awr temp u tar = Throw).
Proof.
  intros c. unfold make_elastic, elastic_valid, c. change (@nofZ R NumR 0) with 0.
  change (@nleb R NumR) with Rleb. change (@nltb R NumR) with Rltb.
  pose proof (K_to_MeV_sign temp) as [K1 K2].
  destruct (Rleb_spec awr 0) as [|]; [right; split; [lra|reflexivity]|].
  destruct (Rltb_spec (K_to_MeV temp) 0) as [|].
  { assert (temp < 0) by (apply K2; assumption). right; split; [lra|reflexivity]. }
  assert (0 <= temp) by (apply K1; assumption).
  destruct (Rltb_spec tar 0) as [|]; [right; split; [lra|reflexivity]|].
  destruct brd as [b|].
  - left. split; [repeat split; try assumption; discriminate|]. eexists. split; [reflexivity|]. cbn. tauto.
  - right. split; [tauto|reflexivity].
Qed.
Lemma make_elastic_spec brd ang awr temp u tar :
  (forall e, @make_elastic R NumR brd ang awr temp u tar = Ok e -> elastic_valid e) /\
  ((exists e, make_elastic brd ang awr temp u tar = Ok e) <-> (0 < awr /\ 0 <= temp /\ 0 <= tar /\ brd <> None)) /\
  (make_elastic brd ang awr temp u tar = Throw <-> ~ (0 < awr /\ 0 <= temp /\ 0 <= tar /\ brd <> None)).
Proof.
  destruct (make_elastic_cases brd ang awr temp u tar) as [(C & e & H & V)|(C & H)]; rewrite H.
  - split; [intros e' E; injection E as <-; exact V|]. split; split; intros; try assumption; try discriminate; [eauto|tauto].
  - split; [intros e' E; discriminate|]. split; split; intros HH; try assumption; try reflexivity; try tauto.
    destruct HH; discriminate.
Qed.

Inductive elastic_op : Type :=
| OpBrd (b : option (R -> R -> R -> rand R (vec R))) | OpTemp (t : R) | OpUseTar (u : bool) | OpTar (t : R).
Definition run_op (e : elastic_obj R) (o : elastic_op) : elastic_obj R * bool :=
  match o with
  | OpBrd b => set_brd e b | OpTemp t => set_temperature e t | OpUseTar u => set_use_tar e u | OpTar t => set_tar_threshold e t
  end.
Fixpoint run_ops (e : elastic_obj R) (l : list elastic_op) : elastic_obj R :=
  match l with [] => e | o :: t => run_ops (fst (run_op e o)) t end.
(** the calls a careful user makes *)
Definition op_ok (o : elastic_op) : Prop :=
  match o with OpTemp t => 0 <= t | OpTar t => 0 <= t | _ => True end.

Lemma run_ops_valid l : forall e, elastic_valid e -> Forall op_ok l -> elastic_valid (run_ops e l).
Proof.
  induction l as [|o l IH]; intros e He Hl; [exact He|]. inversion Hl; subst. cbn [run_ops]. apply IH; [|assumption].
  destruct o as [[b|]|t|u|t]; cbn in *; unfold elastic_valid in *; cbn; try exact He; try tauto.
  pose proof (proj1 (K_to_MeV_sign t)). tauto.
Qed.
Lemma run_op_throw_unchanged e o : (forall t, o <> OpTar t) -> snd (run_op e o) = true -> fst (run_op e o) = e.
Proof. intros H. destruct o as [[b|]|t|u|t]; cbn; intros; try discriminate; try reflexivity. exfalso; eapply H; reflexivity. Qed.
Lemma run_op_tar_throws e t : snd (run_op e (OpTar t)) = true <-> t < 0.
Proof. cbn. apply Rltb_true. Qed.

Definition some_elastic : elastic_obj R :=
  mkElastic (fun _ => rret 0) 10 1 true 400 (fun _ _ _ => rret (mkVec 0 0 0)).
Lemma some_elastic_valid : elastic_valid some_elastic.
Proof. unfold elastic_valid, some_elastic; cbn; lra. Qed.
Lemma set_temperature_wrong : forall e t, t < 0 ->
  snd (run_op e (OpTemp t)) = false /\ ~ elastic_valid (fst (run_op e (OpTemp t))).
Proof.
  intros e t Ht. split; [reflexivity|]. unfold elastic_valid. cbn. intros (_ & H & _).
  pose proof (proj2 (K_to_MeV_sign t)). assert (K_to_MeV t < 0) by tauto. lra.
Qed.
Lemma set_tar_wrong : forall e t, t < 0 ->
  snd (run_op e (OpTar t)) = true /\ e_tar (fst (run_op e (OpTar t))) = t /\ ~ elastic_valid (fst (run_op e (OpTar t))).
Proof.
  intros e t Ht. split; [apply run_op_tar_throws; assumption|]. split; [reflexivity|].
  unfold elastic_valid. cbn. lra.
Qed.

(** sampling *)
Definition cosine_sampler (f : R -> rand R R) : Prop :=
  forall E ds m ds', f E ds = Ok (m, ds') -> -1 <= m <= 1.

Lemma elastic_sample_inv e E ds mu Eo ds' : elastic_sample e E ds = Ok ((mu, Eo), ds') ->
  exists vt d1 m d2 xi, 
    ((e_use_tar e = true /\ e_tar e * e_kT e <= E) -> vt = mkVec 0 0 0) /\
    (~ (e_use_tar e = true /\ e_tar e * e_kT e <= E) -> e_brd e E (e_kT e) (e_awr e) ds = Ok (vt, d1)) /\
    e_angle e E d1 = Ok (m, d2) /\ d2 = xi :: ds' /\
    @elastic_out R NumR E (e_awr e) vt m (2 * PI * xi) = (mu, Eo).
Proof.
  unfold elastic_sample. intros H.
  apply rbind_ok in H as (vt & d1 & H1 & H). apply rbind_ok in H as (m & d2 & H2 & H).
  apply rbind_ok in H as (xi & d3 & H3 & H). apply rret_ok in H as [H <-]. apply draw_ok in H3 as ->.
  exists vt, d1, m, (xi :: d3), xi. 
  assert (Hb : e_use_tar e = true /\ e_tar e * e_kT e <= E <-> (e_use_tar e && @nleb R NumR (nmul (e_tar e) (e_kT e)) E)%bool = true).
  { rewrite andb_true_iff. change (@nleb R NumR) with Rleb. rewrite Rleb_true. reflexivity. }
  destruct (e_use_tar e && nleb (nmul (e_tar e) (e_kT e)) E)%bool eqn:B.
  - split; [intros _; apply rret_ok in H1 as [<- _]; reflexivity|]. split; [tauto|]. split; [exact H2|]. split; [reflexivity|exact H].
  - assert (~ (e_use_tar e = true /\ e_tar e * e_kT e <= E)) by (rewrite Hb; congruence).
    split; [tauto|]. split; [intros _; exact H1|]. split; [exact H2|]. split; [reflexivity|exact H].
Qed.

Lemma elastic_sample_tar e E ds mu Eo ds' :
  elastic_valid e -> 0 < E -> cosine_sampler (e_angle e) -> e_use_tar e = true -> e_tar e * e_kT e <= E ->
  elastic_sample e E ds = Ok ((mu, Eo), ds') ->
  let A := e_awr e in
  exists m, -1 <= m <= 1 /\ Eo = E * (1 + 2 * A * m + A * A) / ((1 + A) * (1 + A)) /\
    ((A - 1) / (A + 1)) * ((A - 1) / (A + 1)) * E <= Eo <= E /\
    (0 < 1 + 2 * A * m + A * A -> mu * sqrt (1 + 2 * A * m + A * A) = 1 + A * m /\ -1 <= mu <= 1).
Proof.
  intros (HA & HK & HT) HE Hc Hu Ht H A. apply elastic_sample_inv in H as (vt & d1 & m & d2 & xi & H1 & _ & H2 & _ & H3).
  rewrite (H1 (conj Hu Ht)) in H3. exists m. assert (Hm := Hc _ _ _ _ H2). split; [exact Hm|].
  eapply elastic_tar; eassumption.
Qed.
Lemma elastic_sample_any e E ds mu Eo ds' :
  elastic_valid e -> 0 < E -> cosine_sampler (e_angle e) ->
  elastic_sample e E ds = Ok ((mu, Eo), ds') ->
  exists vt m, -1 <= m <= 1 /\
    (vt <> mkVec 0 0 (sqrt E) ->
     exists vout, elastic_collision (e_awr e) (mkVec 0 0 (sqrt E)) vt vout m /\
       Eo = norm2 vout /\ 0 <= Eo /\ (0 < Eo -> mu * sqrt Eo = vz vout /\ -1 <= mu <= 1)).
Proof.
  intros (HA & HK & HT) HE Hc H. apply elastic_sample_inv in H as (vt & d1 & m & d2 & xi & _ & _ & H2 & _ & H3).
  exists vt, m. assert (Hm := Hc _ _ _ _ H2). split; [exact Hm|]. intros Hv.
  destruct (@elastic_general E (e_awr e) vt m (2 * PI * xi)) as (vo & C & Ho); try assumption; [lra|].
  rewrite H3 in Ho. exists vo. split; [exact C|exact Ho].
Qed.

(** SVT: the sampled target velocity *)
Lemma svt_loop_spec fuel : forall y ds x2 mu ds', (forall d, In d ds -> 0 < d < 1) ->
  @svt_loop R NumR fuel y ds = Ok ((x2, mu), ds') -> 0 <= x2 /\ -1 <= mu <= 1 /\ (forall d, In d ds' -> 0 < d < 1).
Proof.
  assert (Hln : forall d, 0 < d < 1 -> ln d < 0) by (intros d Hd; rewrite <- ln_1; apply ln_increasing; lra).
  induction fuel as [|f IH]; intros y ds x2 mu ds' Hd H; cbn [svt_loop] in H; [discriminate|].
  apply rbind_ok in H as (xi & d1 & H1 & H). destruct ds as [|x ds]; [discriminate|]. cbn in H1. injection H1 as -> ->.
  assert (Hd1 : forall d, In d d1 -> 0 < d < 1) by (intros; apply Hd; right; assumption).
  apply rbind_ok in H as (x2' & d2 & H2 & H).
  assert (Hx : 0 <= x2' /\ (forall d, In d d2 -> 0 < d < 1)).
  { destruct (nltb _ _) in H2.
    - destruct d1 as [|a [|b d1]]; try discriminate. cbn in H2. injection H2 as <- <-.
      assert (0 < a < 1) by (apply Hd1; left; reflexivity). assert (0 < b < 1) by (apply Hd1; right; left; reflexivity).
      split; [|intros; apply Hd1; do 2 right; assumption].
      rewrite ln_mult by lra. pose proof (Hln a H0). pose proof (Hln b H1). lra.
    - destruct d1 as [|a [|b [|c d1]]]; try discriminate. cbn in H2. injection H2 as <- <-.
      assert (0 < b < 1) by (apply Hd1; right; left; reflexivity). assert (0 < c < 1) by (apply Hd1; do 2 right; left; reflexivity).
      split; [|intros; apply Hd1; do 3 right; assumption].
      pose proof (Hln b H0). pose proof (Hln c H1). set (q := cos _).
      assert (0 <= (- ln c) * (q * q)) by (apply Rmult_le_pos; nra). lra. }
  destruct Hx as [Hx Hd2].
  apply rbind_ok in H as (m & d3 & H3 & H). destruct d2 as [|y2 d2]; [discriminate|]. cbn in H3. injection H3 as -> ->.
  assert (Hm : 0 < m < 1) by (apply Hd2; left; reflexivity).
  apply rbind_ok in H as (r & d4 & H4 & H). destruct d3 as [|y3 d3]; [discriminate|]. cbn in H4. injection H4 as -> ->.
  assert (Hd4 : forall d, In d d4 -> 0 < d < 1) by (intros; apply Hd2; do 2 right; assumption).
  destruct (nltb r _) in H.
  - unfold rret in H. injection H as <- <- <-. split; [exact Hx|]. split; [|exact Hd4]. rnum. lra.
  - eapply IH; eassumption.
Qed.
Lemma svt_sample_spec Ein kT awr ds v ds' : 0 < kT -> 0 < awr -> (forall d, In d ds -> 0 < d < 1) ->
  @svt_sample R NumR Ein kT awr ds = Ok (v, ds') ->
  exists x2 mu, 0 <= x2 /\ -1 <= mu <= 1 /\ norm2 v = x2 * kT / awr /\ vz v = mu * sqrt (norm2 v).
Proof.
  intros Hk Ha Hd H. unfold svt_sample in H. apply rbind_ok in H as ([x2 mu] & d1 & H1 & H).
  apply svt_loop_spec in H1 as (H1 & H2 & H3); [|exact Hd].
  apply rbind_ok in H as (xi & d2 & H4 & H). apply rret_ok in H as [H _].
  exists x2, mu. split; [exact H1|]. split; [exact H2|].
  set (u0 := mkVec 0 0 1). assert (Hu : norm2 u0 = 1) by (unfold norm2, u0; cbn; lra).
  destruct (@rotate_general u0 mu (2 * PI * xi) Hu) as [R1 R2]. rewrite clampR in R2 by lra.
  change (rotate (mkVec (nofZ 0) (nofZ 0) (nofZ 1)) mu (nmul (nmul (nofZ 2) npi) xi)) with (@rotate R NumR u0 mu (2 * PI * xi)) in H.
  set (O := rotate u0 mu (2 * PI * xi)) in *. clearbody O.
  change (@nsqrt R NumR (ndiv (nmul x2 kT) awr)) with (sqrt (x2 * kT / awr)) in H.
  assert (Hq : 0 <= x2 * kT / awr) by (apply Rmult_le_pos; [apply Rmult_le_pos; lra|left; apply Rinv_0_lt_compat; lra]).
  assert (Hs : sqrt (x2 * kT / awr) * sqrt (x2 * kT / awr) = x2 * kT / awr) by (apply sqrt_sqrt; assumption).
  assert (HN : norm2 v = x2 * kT / awr).
  { rewrite <- Hs, <- H. unfold norm2, vmul. cbn [vx vy vz]. rnum. set (s := sqrt _). unfold norm2 in R1.
    transitivity ((vx O * vx O + vy O * vy O + vz O * vz O) * (s * s)); [ring|]. rewrite R1. ring. }
  split; [exact HN|]. rewrite HN, <- H. unfold vmul. cbn [vz]. rnum. rewrite <- R2. unfold dot, u0. cbn [vx vy vz]. ring.
Qed.
(** the rejection step's acceptance probability is a probability: the relative speed is at most the sum of speeds *)
Lemma svt_accept_le_1 x y mu : 0 <= x -> 0 <= y -> 0 < x + y -> -1 <= mu <= 1 ->
  0 <= sqrt (y * y + x * x - 2 * y * x * mu) / (x + y) <= 1.
Proof.
  intros. assert (0 <= x * y) by (apply Rmult_le_pos; assumption).
  assert (sqrt (y * y + x * x - 2 * y * x * mu) <= x + y).
  { rewrite <- (sqrt_square (x + y)) by lra. apply sqrt_le_1_alt. nra. }
  pose proof (sqrt_pos (y * y + x * x - 2 * y * x * mu)).
  split; [apply Rmult_le_pos; [assumption|left; apply Rinv_0_lt_compat; lra]|].
  apply Rmult_le_reg_r with (x + y); [lra|]. field_simplify; lra.
Qed.
