(** * Calculus and the analytic spectra *)
From Coquelicot Require Import Coquelicot.
From Verif Require Import Base NumR L_Search L_SearchR M_Interp M_PC M_Spectra L_Interp2 L_PCR L_Legendre L_Angle.
From Coq Require Import ZifyBool ZifyNat.
Local Open Scope R_scope.

(** ** integral of a derivative known on the open interval only *)
Lemma cont_pt (f : R -> R) x : continuous f x -> continuity_pt f x.
Proof. intros H. apply continuity_pt_filterlim. exact H. Qed.
Lemma pt_cont (f : R -> R) x : continuity_pt f x -> continuous f x.
Proof. intros H. apply continuity_pt_filterlim in H. exact H. Qed.
Lemma edc (f : R -> R) (x : R) : ex_derive f x -> continuous f x.
Proof. apply (ex_derive_continuous (K := R_AbsRing) (V := R_NormedModule)). Qed.
Lemma FTC_open (F h : R -> R) a b : a < b -> (forall x, a < x < b -> is_derive F x (h x)) -> (forall x, continuous h x) -> (forall x, continuous F x) -> is_RInt h a b (F b - F a).
Proof.
  intros Hab D Ch CF.
  assert (Ex : forall y, ex_RInt h a y) by (intros y; apply (ex_RInt_continuous (V := R_CompleteNormedModule)); intros; apply Ch).
  assert (G : forall x, is_derive (fun y => RInt h a y) x (h x)).
  { intros x. apply is_derive_RInt with (a := a); [exists posreal_one; intros y _; apply (RInt_correct (V := R_CompleteNormedModule)), Ex|apply Ch]. }
  destruct (MVT_gen (fun x => F x - RInt h a x) a b (fun _ => 0)) as (c & _ & Hc).
  - rewrite Rmin_left, Rmax_right by lra. intros x Hx. replace 0 with (h x - h x) by ring. apply (dR_minus F (fun y => RInt h a y)); [apply D, Hx|apply G].
  - intros x _. apply cont_pt. apply (continuous_minus F (fun y => RInt h a y)); [apply CF|]. apply edc. eexists. apply G.
  - rewrite RInt_point in Hc. change (@zero R_CompleteNormedModule) with 0 in Hc. replace (F b - F a) with (RInt h a b) by lra. apply (RInt_correct (V := R_CompleteNormedModule)), Ex.
Qed.

(** ** erf *)
Lemma cont_gauss x : continuous (fun t => exp (- (t * t))) x.
Proof. apply edc. auto_derive. trivial. Qed.
Lemma erf_derive x : is_derive Rerf x (2 / sqrt PI * exp (- (x * x))).
Proof.
  unfold Rerf. apply (dR_scal (fun x => RInt (fun t => exp (- (t * t))) 0 x)).
  apply (is_derive_RInt (fun t => exp (- (t * t))) (fun x => RInt (fun t => exp (- (t * t))) 0 x) 0 x); [|apply cont_gauss].
  exists posreal_one. intros y _. apply (RInt_correct (V := R_CompleteNormedModule)), (ex_RInt_continuous (V := R_CompleteNormedModule)). intros; apply cont_gauss.
Qed.
Lemma erf_cont x : continuous Rerf x.
Proof. apply edc. eexists. apply erf_derive. Qed.
Lemma erf_0 : Rerf 0 = 0.
Proof. unfold Rerf. rewrite RInt_point. change (@zero R_CompleteNormedModule) with 0. ring. Qed.
Lemma erf_opp x : Rerf (- x) = - Rerf x.
Proof.
  assert (H : Rerf (- x) + Rerf x = Rerf (- 0) + Rerf 0).
  { destruct (MVT_gen (fun x => Rerf (- x) - - 1 * Rerf x) 0 x (fun _ => 0)) as (c & _ & Hc).
    - intros y _. replace 0 with (- 1 * (2 / sqrt PI * exp (- (- y * - y))) - - 1 * (2 / sqrt PI * exp (- (y * y)))) by (replace (- y * - y) with (y * y) by ring; ring).
      apply (dR_minus (fun x => Rerf (- x)) (fun x => - 1 * Rerf x)); [|apply dR_scal, erf_derive].
      apply (is_derive_comp Rerf Ropp y (2 / sqrt PI * exp (- (- y * - y))) (-1)); [apply erf_derive|]. auto_derive; [trivial|]. ring.
    - intros y _. apply cont_pt. apply (continuous_minus (fun x => Rerf (- x)) (fun x => - 1 * Rerf x)).
      + apply (continuous_comp Ropp Rerf); [apply (continuous_opp (fun x : R => x)), continuous_id|apply erf_cont].
      + apply (continuous_scal_r (-1) Rerf), erf_cont.
    - lra. }
  rewrite Ropp_0, !erf_0 in H. lra.
Qed.
(** 0 <= sqrt(pi)/2 erf(x) <= x for x >= 0 *)
Lemma erf_le x : 0 <= x -> sqrt PI / 2 * Rerf x <= x.
Proof.
  intros Hx. assert (Hp : 0 < sqrt PI) by (apply sqrt_lt_R0, PI_RGT_0).
  assert (E : sqrt PI / 2 * Rerf x = RInt (fun t => exp (- (t * t))) 0 x) by (unfold Rerf; generalize (RInt (fun t => exp (- (t * t))) 0 x : R); intros q; change (sqrt PI / 2 * (2 / sqrt PI * q) = q); field; lra).
  assert (E1 : RInt (fun _ => 1) 0 x = x) by (rewrite (RInt_const (V := R_CompleteNormedModule)); change ((x - 0) * 1 = x); ring).
  rewrite E. rewrite <- E1 at 2.
  apply RInt_le; [exact Hx|apply (ex_RInt_continuous (V := R_CompleteNormedModule)); intros; apply cont_gauss|apply ex_RInt_const|].
  intros t _. rewrite <- exp_0. destruct (Req_dec t 0) as [->|Q]; [right; f_equal; ring|]. left. apply exp_increasing. nra.
Qed.

(** ** rejection loops *)
Section Reject.
  Context {T : Type} {N : Num T}.
  Lemma reject_ok n (cand : rand T T) ok ds e ds' : reject n cand ok ds = Ok (e, ds') -> ok e = true.
  Proof.
    revert ds. induction n as [|n IH]; intros ds H; [discriminate|]. cbn [reject] in H. apply rbind_ok in H as (x & ds1 & _ & H).
    destruct (ok x) eqn:E; [apply rret_ok in H as [<- _]; exact E|exact (IH _ H)].
  Qed.
  (** a candidate that draws at least once: any fuel above the number of draws gives the same result *)
  Lemma reject_fuel (cand : rand T T) ok : (forall ds e ds', cand ds = Ok (e, ds') -> (length ds' < length ds)%nat) ->
    forall n m ds, (length ds < n)%nat -> (length ds < m)%nat -> reject n cand ok ds = reject m cand ok ds.
  Proof.
    intros C. induction n as [|n IH]; intros m ds Hn Hm; [lia|]. destruct m as [|m]; [lia|]. cbn [reject]. unfold rbind. destruct (cand ds) as [[e ds']| | |] eqn:E; try reflexivity.
    destruct (ok e); [reflexivity|]. specialize (C _ _ _ E). apply IH; lia.
  Qed.
  Lemma reject_never n (cand : rand T T) ok : (forall e, ok e = false) -> (forall ds, cand ds = NoDraw \/ exists e ds', cand ds = Ok (e, ds')) -> forall ds, reject n cand ok ds = NoDraw.
  Proof.
    intros F C. induction n as [|n IH]; intros ds; [reflexivity|]. cbn [reject]. unfold rbind. destruct (C ds) as [-> | (e & ds' & ->)]; [reflexivity|]. rewrite F. apply IH.
  Qed.
  Lemma accept_spec (U E e : T) : accept U E e = true -> nleb (nofZ 0) e = true /\ nleb e (E -~ U)%num = true.
  Proof. unfold accept. intros H. apply andb_prop in H. exact H. Qed.
  Lemma mw_range temp U E ds e ds' : mw_sample temp U E ds = Ok (e, ds') -> nleb (nofZ 0) e = true /\ nleb e (E -~ U)%num = true.
  Proof. unfold mw_sample. intros H. apply rbind_ok in H as (t & ds1 & _ & H). apply reject_ok in H. exact (accept_spec _ _ _ H). Qed.
  Lemma ev_range temp U E ds e ds' : ev_sample temp U E ds = Ok (e, ds') -> nleb (nofZ 0) e = true /\ nleb e (E -~ U)%num = true.
  Proof. unfold ev_sample. intros H. apply rbind_ok in H as (t & ds1 & _ & H). apply reject_ok in H. exact (accept_spec _ _ _ H). Qed.
  Lemma w_range d E ds e ds' : w_sample d E ds = Ok (e, ds') -> nleb (nofZ 0) e = true /\ nleb e (E -~ w_U d)%num = true.
  Proof. unfold w_sample. intros H. apply rbind_ok in H as (t & ds1 & _ & H). apply rbind_ok in H as (b & ds2 & _ & H). apply reject_ok in H. exact (accept_spec _ _ _ H). Qed.
  (** one turn of each loop *)
  Definition draws_some (cand : rand T T) : Prop := forall ds e ds', cand ds = Ok (e, ds') -> (length ds' < length ds)%nat.
  Lemma reject_step (cand : rand T T) ok ds e ds' : draws_some cand -> cand ds = Ok (e, ds') ->
    reject (S (length ds)) cand ok ds = if ok e then Ok (e, ds') else reject (S (length ds')) cand ok ds'.
  Proof.
    intros C H. change (reject (S (length ds)) cand ok ds) with ((rlet! e := cand in if ok e then rret e else reject (length ds) cand ok) ds). unfold rbind at 1. rewrite H. destruct (ok e); [reflexivity|]. specialize (C _ _ _ H) as C'. apply reject_fuel; [exact C|lia|lia].
  Qed.
  Lemma mw_draws t : draws_some (mw_cand t).
  Proof.
    intros ds0 e ds' H. unfold mw_cand in H. apply rbind_ok in H as (a & d1 & H1 & H). apply rbind_ok in H as (b & d2 & H2 & H). apply rbind_ok in H as (c & d3 & H3 & H).
    apply rret_ok in H as [_ <-]. apply draw_ok in H1, H2, H3. subst. cbn [length]. lia.
  Qed.
  Lemma ev_draws t U E : draws_some (ev_cand t U E).
  Proof.
    intros ds0 e ds' H. unfold ev_cand in H. apply rbind_ok in H as (a & d1 & H1 & H). apply rbind_ok in H as (b & d2 & H2 & H).
    apply rret_ok in H as [_ <-]. apply draw_ok in H1, H2. subst. cbn [length]. lia.
  Qed.
  Lemma w_draws a b : draws_some (w_cand a b).
  Proof.
    intros ds0 e ds' H. unfold w_cand in H. apply rbind_ok in H as (a' & d1 & H1 & H). apply rbind_ok in H as (b' & d2 & H2 & H). apply rbind_ok in H as (c' & d3 & H3 & H). apply rbind_ok in H as (e' & d4 & H4 & H).
    apply rret_ok in H as [_ <-]. apply draw_ok in H1, H2, H3, H4. subst. cbn [length]. lia.
  Qed.
  Lemma mw_eq temp U E t ds : temp E = Ok t -> mw_sample temp U E ds = reject (S (length ds)) (mw_cand t) (accept U E) ds.
  Proof. intros H. unfold mw_sample, rbind, rlift. rewrite H. reflexivity. Qed.
  Lemma ev_eq temp U E t ds : temp E = Ok t -> ev_sample temp U E ds = reject (S (length ds)) (ev_cand t U E) (accept U E) ds.
  Proof. intros H. unfold ev_sample, rbind, rlift. rewrite H. reflexivity. Qed.
  Lemma w_eq d E a b ds : w_a d E = Ok a -> w_b d E = Ok b -> w_sample d E ds = reject (S (length ds)) (w_cand a b) (accept (w_U d) E) ds.
  Proof. intros H H'. unfold w_sample, rbind, rlift. rewrite H. cbn [bind]. rewrite H'. reflexivity. Qed.
  Lemma mw_step temp U E t x1 x2 x3 ds : temp E = Ok t -> mw_sample temp U E (x1 :: x2 :: x3 :: ds) =
    let c := ncos (npi *~ x3 /~ nofZ 2)%num in let e := ((-~ t) *~ (nlog x1 +~ nlog x2 *~ c *~ c))%num in
    if accept U E e then Ok (e, ds) else mw_sample temp U E ds.
  Proof. intros Ht. cbv zeta. rewrite !(mw_eq temp U E t) by exact Ht. apply reject_step; [apply mw_draws|reflexivity]. Qed.
  Lemma ev_step temp U E t x1 x2 ds : temp E = Ok t -> ev_sample temp U E (x1 :: x2 :: ds) =
    let g := (nofZ 1 -~ nexp (-~ ((E -~ U) /~ t)))%num in let e := ((-~ t) *~ nlog ((nofZ 1 -~ g *~ x1) *~ (nofZ 1 -~ g *~ x2)))%num in
    if accept U E e then Ok (e, ds) else ev_sample temp U E ds.
  Proof. intros Ht. cbv zeta. rewrite !(ev_eq temp U E t) by exact Ht. apply reject_step; [apply ev_draws|reflexivity]. Qed.
  Lemma w_step d E a b x1 x2 x3 x4 ds : w_a d E = Ok a -> w_b d E = Ok b -> w_sample d E (x1 :: x2 :: x3 :: x4 :: ds) =
    let c := ncos (npi *~ x3 /~ nofZ 2)%num in let w := ((-~ a) *~ (nlog x1 +~ nlog x2 *~ c *~ c))%num in
    let e := (w +~ nlit 1 4 *~ a *~ a *~ b +~ (nofZ 2 *~ x4 -~ nofZ 1) *~ nsqrt (a *~ a *~ b *~ w))%num in
    if accept (w_U d) E e then Ok (e, ds) else w_sample d E ds.
  Proof. intros Ha Hb. cbv zeta. rewrite !(w_eq d E a b) by assumption. apply reject_step; [apply w_draws|reflexivity]. Qed.
End Reject.

(** below the threshold no candidate is ever accepted *)
Lemma accept_never U E e : E < U -> @accept R NumR U E e = false.
Proof.
  intros H. unfold accept. change (@nleb R NumR) with Rleb. change (@nofZ R NumR 0) with 0. change (@nsub R NumR E U) with (E - U). destruct (Rleb_spec 0 e); [|reflexivity]. apply Rleb_false. lra.
Qed.
Lemma draw_cases {T} (ds : list T) : draw ds = NoDraw \/ exists x t, draw ds = Ok (x, t).
Proof. destruct ds; [left; reflexivity|right; do 2 eexists; reflexivity]. Qed.
Ltac drw := match goal with |- context [draw ?ds] => destruct (draw_cases ds) as [-> | (? & ? & ->)]; [left; reflexivity|] end.
Lemma mw_never temp U E t ds : temp E = Ok t -> E < U -> @mw_sample R NumR temp U E ds = NoDraw.
Proof.
  intros Ht H. unfold mw_sample. unfold rbind at 1, rlift at 1. rewrite Ht. cbn [bind]. apply reject_never; [intros; apply accept_never, H|].
  intros d. unfold mw_cand, rbind. do 3 drw. right. unfold rret. eauto.
Qed.
Lemma ev_never temp U E t ds : temp E = Ok t -> E < U -> @ev_sample R NumR temp U E ds = NoDraw.
Proof.
  intros Ht H. unfold ev_sample. unfold rbind at 1, rlift at 1. rewrite Ht. cbn [bind]. apply reject_never; [intros; apply accept_never, H|].
  intros d. unfold ev_cand, rbind. do 2 drw. right. unfold rret. eauto.
Qed.
Lemma w_never d E a b ds : w_a d E = Ok a -> w_b d E = Ok b -> E < w_U d -> @w_sample R NumR d E ds = NoDraw.
Proof.
  intros Ha Hb H. unfold w_sample. unfold rbind at 1, rlift at 1. rewrite Ha. cbn [bind]. unfold rbind at 1, rlift at 1. rewrite Hb. cbn [bind]. apply reject_never; [intros; apply accept_never, H|].
  intros q. unfold w_cand, rbind. do 4 drw. right. unfold rret. eauto.
Qed.

(** ** the three densities *)
Lemma outside_test x du : (@nltb R NumR x (@nofZ R NumR 0) || @nltb R NumR du x)%bool = if Rlt_dec x 0 then true else if Rlt_dec du x then true else false.
Proof. change (@nltb R NumR) with Rltb. change (@nofZ R NumR 0) with 0. unfold Rltb. destruct (Rlt_dec x 0), (Rlt_dec du x); reflexivity. Qed.
Ltac ins Hx := rewrite outside_test; destruct (Rlt_dec _ 0) as [?|_]; [lra|]; destruct (Rlt_dec _ _) as [?|_]; [lra|].

(** evaporation *)
Definition ev_norm (t du : R) : R := t * t * (1 - exp (- du / t) * (1 + du / t)).
Lemma ev_norm_pos t du : 0 < t -> 0 < du -> 0 < ev_norm t du.
Proof.
  intros Ht Hd. unfold ev_norm. assert (Hx : 0 < du / t) by (apply Rdiv_lt_0_compat; lra). set (x := du / t) in *. replace (- du / t) with (- x) by (unfold x; field; lra).
  rewrite exp_Ropp. pose proof (exp_ineq1 x ltac:(lra)) as H. pose proof (exp_pos x). assert (/ exp x * (1 + x) < 1). { apply (Rmult_lt_reg_l (exp x)); [assumption|]. replace (exp x * (/ exp x * (1 + x))) with (1 + x) by (field; lra). lra. }
  assert (0 < t * t) by nra. apply Rmult_lt_0_compat; lra.
Qed.
Lemma ev_pdf_inside temp U E t x : temp E = Ok t -> 0 <= x <= E - U -> @ev_pdf R NumR temp U E x = Ok (x / ev_norm t (E - U) * exp (- x / t)).
Proof. intros Ht Hx. unfold ev_pdf. change (@nsub R NumR E U) with (E - U). ins Hx. rewrite Ht. cbn [bind]. reflexivity. Qed.
Lemma ev_pdf_outside temp U E x : x < 0 \/ E - U < x -> @ev_pdf R NumR temp U E x = Ok 0.
Proof. intros Hx. unfold ev_pdf. change (@nsub R NumR E U) with (E - U). rewrite outside_test. destruct (Rlt_dec x 0); [reflexivity|]. destruct (Rlt_dec (E - U) x); [reflexivity|]. lra. Qed.
Lemma ev_integral t du : 0 < t -> is_RInt (fun x => x * exp (- x / t)) 0 du (ev_norm t du).
Proof.
  intros Ht. apply (iR_val _ 0 du (- t * (du + t) * exp (- du / t) - - t * (0 + t) * exp (- 0 / t))).
  - unfold ev_norm. replace (- 0 / t) with 0 by (field; lra). rewrite exp_0. field. lra.
  - apply (derive_RInt _ (fun x => - t * (x + t) * exp (- x / t))).
    + intros x _. auto_derive; [trivial|]. replace (- x * / t) with (- x / t) by reflexivity. field. lra.
    + intros x _. apply edc. auto_derive. trivial.
    + ring.
Qed.
