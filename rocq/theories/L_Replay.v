(** * Samplers are replayable *)
From Coq Require Import Lia List ZifyBool ZifyNat.
From Verif Require Import Base M_Interp M_Tab1D M_Grid M_PC M_Legendre M_OutE M_Spectra M_Kin M_Doppler M_Thermal M_Neutron M_Laws S_Replay.
Import ListNotations.

Section Replay.
  Context {T : Type}.
  Lemma rp_ret {A} (v : A) : replayable (@rret T A v).
  Proof. intros ds. cbn. exists []. split; reflexivity. Qed.
  Lemma rp_lift {A} (m : res A) : replayable (@rlift T A m).
  Proof. intros ds. unfold rlift. destruct m; cbn [bind]; trivial. exists []. split; reflexivity. Qed.
  Lemma rp_draw : replayable (@draw T).
  Proof. intros [|d ds]; cbn; [exact I|]. exists [d]. split; reflexivity. Qed.
  Lemma rp_bind {A B} (m : rand T A) (k : A -> rand T B) : replayable m -> (forall v, replayable (k v)) -> replayable (rbind m k).
  Proof.
    intros M K ds. unfold rbind at 1. pose proof (M ds) as H. destruct (m ds) as [[v r]| | |] eqn:E; trivial.
    - destruct H as (u & -> & H). pose proof (K v r) as Q. destruct (k v r) as [[w r2]| | |] eqn:E2; trivial.
      + destruct Q as (u2 & -> & Q). exists (u ++ u2). split; [apply app_assoc|]. intros r'. unfold rbind. rewrite <- app_assoc, H. apply Q.
      + intros more. unfold rbind. rewrite <- app_assoc, H. apply Q.
      + intros more. unfold rbind. rewrite <- app_assoc, H. apply Q.
    - intros more. unfold rbind. rewrite H. reflexivity.
    - intros more. unfold rbind. rewrite H. reflexivity.
  Qed.
  Lemma rp_throw {A} : replayable (fun _ : list T => (Throw : res (A * list T))). Proof. intros ds more. reflexivity. Qed.
  Lemma rp_ub {A} : replayable (fun _ : list T => (UB : res (A * list T))). Proof. intros ds more. reflexivity. Qed.
  Lemma rp_ext {A} (s s' : rand T A) : (forall ds, s ds = s' ds) -> replayable s -> replayable s'.
  Proof.
    intros E H ds. specialize (H ds). rewrite E in H. destruct (s' ds) as [[v r]| | |]; trivial.
    - destruct H as (u & -> & H). exists u. split; [reflexivity|]. intros r'. rewrite <- E. apply H.
    - intros more. rewrite <- E. apply H.
    - intros more. rewrite <- E. apply H.
  Qed.
  (** a loop: each turn [t] consumes at least one number *)
  Definition asks_ {A} (t : rand T A) : Prop := forall v r, t [] <> Ok (v, r).
  Definition next {A} (s : rand T A) (o : res (option A * list T)) : res (A * list T) :=
    match o with Ok (Some v, r) => Ok (v, r) | Ok (None, r) => s r | Throw => Throw | UB => UB | NoDraw => NoDraw end.
  Lemma shorter {A} (t : rand T A) ds v r : replayable t -> asks_ t -> t ds = Ok (v, r) -> (length r < length ds)%nat.
  Proof.
    intros H As E. specialize (H ds). rewrite E in H. destruct H as (u & -> & H). destruct u as [|x u]; [|cbn; rewrite app_length; lia].
    exfalso. apply (As v []). apply (H []).
  Qed.
  Lemma rp_loop {A} (s : rand T A) (t : rand T (option A)) : replayable t -> asks_ t -> (forall ds, s ds = next s (t ds)) -> replayable s.
  Proof.
    intros Rt As E. assert (G : forall n ds, (length ds < n)%nat -> match s ds with Ok (v, rest) => exists used, ds = used ++ rest /\ forall rest', s (used ++ rest') = Ok (v, rest') | NoDraw => True
      | Throw => forall more, s (ds ++ more) = Throw | UB => forall more, s (ds ++ more) = UB end); [|intros ds; apply (G (S (length ds))); lia].
    induction n as [|n IH]; intros ds L; [lia|]. rewrite E. pose proof (Rt ds) as H. destruct (t ds) as [[[v|] r]| | |] eqn:Et; cbn [next]; trivial.
    - destruct H as (u & -> & H). exists u. split; [reflexivity|]. intros r'. rewrite E, H. reflexivity.
    - pose proof (shorter t ds None r Rt As Et) as Sh. specialize (IH r ltac:(lia)). destruct H as (u & -> & H). destruct (s r) as [[w r2]| | |]; trivial.
      + destruct IH as (u2 & -> & IH). exists (u ++ u2). split; [apply app_assoc|]. intros r'. rewrite <- app_assoc, E, H. cbn [next]. apply IH.
      + intros more. rewrite <- app_assoc, E, H. cbn [next]. apply IH.
      + intros more. rewrite <- app_assoc, E, H. cbn [next]. apply IH.
    - intros more. rewrite E, H. reflexivity.
    - intros more. rewrite E, H. reflexivity.
  Qed.
  (** a loop with fuel, given more fuel than numbers *)
  Definition fueled {A} (l : nat -> rand T A) (t : rand T (option A)) : Prop :=
    (forall ds, l O ds = NoDraw) /\ forall n ds, l (S n) ds = next (l n) (t ds).
  Lemma fuel_enough {A} (l : nat -> rand T A) t : replayable t -> asks_ t -> fueled l t -> forall n m ds, (length ds < n)%nat -> (length ds < m)%nat -> l n ds = l m ds.
  Proof.
    intros Rt As [_ F]. induction n as [|n IH]; intros [|m] ds L1 L2; try lia. rewrite !F. destruct (t ds) as [[[v|] r]| | |] eqn:Et; cbn [next]; trivial.
    pose proof (shorter t ds None r Rt As Et). apply IH; lia.
  Qed.
  Lemma rp_fueled {A} (l : nat -> rand T A) t : replayable t -> asks_ t -> fueled l t -> replayable (fun ds => l (S (length ds)) ds).
  Proof.
    intros Rt As F. apply (rp_loop _ t Rt As). intros ds. destruct F as [F0 F]. rewrite F. destruct (t ds) as [[[v|] r]| | |] eqn:Et; cbn [next]; trivial.
    pose proof (shorter t ds None r Rt As Et). apply (fuel_enough l t Rt As (conj F0 F)); lia.
  Qed.
End Replay.

Ltac rp1 := match goal with
  | |- replayable (rret _) => apply rp_ret
  | |- replayable (rlift _) => apply rp_lift
  | |- replayable draw => apply rp_draw
  | |- replayable (rbind _ _) => apply rp_bind; [|intros ?]
  | |- replayable (let '(_, _) := ?p in _) => destruct p
  | |- replayable (match ?x with _ => _ end) => destruct x
  | |- replayable (fun _ => Throw) => apply rp_throw
  | |- replayable (fun _ => UB) => apply rp_ub
  end.
Ltac rp := cbv zeta; repeat (rp1; cbv beta zeta).

Section Samplers.
  Context {T : Type} {N : Num T}.
  Definition keep (ok : T -> bool) (c : rand T T) : rand T (option T) := rlet! e := c in rret (if ok e then Some e else None).
  Lemma rp_reject (c : rand T T) ok : replayable c -> asks_ c -> replayable (fun ds => reject (S (length ds)) c ok ds).
  Proof.
    intros Rc As. apply (rp_fueled (fun n => reject n c ok) (keep ok c)).
    - unfold keep. apply rp_bind; [exact Rc|]. intros e. apply rp_ret.
    - intros v r E. unfold keep, rbind in E. destruct (c []) as [[e r2]| | |] eqn:Ec; try discriminate. exact (As e r2 Ec).
    - split; [reflexivity|]. intros n ds. cbn [reject]. unfold keep, rbind, rret. destruct (c ds) as [[e r]| | |]; cbn [next]; trivial. destruct (ok e); reflexivity.
  Qed.
  Lemma rp_isotropic : replayable (al_sample isotropic). Proof. unfold isotropic. cbn [al_sample]. rp. Qed.
  Lemma rp_angle_table t : replayable (al_sample (angle_table t)). Proof. unfold angle_table. cbn [al_sample]. rp. Qed.
  Lemma rp_angle_bins t : replayable (al_sample (angle_bins t)). Proof. unfold angle_bins. cbn [al_sample]. rp. Qed.
  Lemma adist_law_in (l : list (alaw T)) (k : Z) a : atZ l k = Ok a -> In a l.
  Proof. unfold atZ. destruct (0 <=? k)%Z; [|discriminate]. destruct (nth_error l (Z.to_nat k)) as [b|] eqn:E; [|discriminate]. intros H. assert (b = a) as <- by congruence. eapply nth_error_In. exact E. Qed.
  Lemma rp_lift_in {A B} (m : res A) (k : A -> rand T B) : (forall v, m = Ok v -> replayable (k v)) -> replayable (rbind (rlift m) k).
  Proof.
    intros H. destruct m as [v| | |]; [|intros ds more; reflexivity|intros ds more; reflexivity|intros ds; exact I]. 
    apply (rp_ext (k v)); [intros ds; reflexivity|apply H; reflexivity].
  Qed.
  Lemma front_in {A} (l : list A) a : frontR l = Ok a -> In a l.
  Proof. unfold frontR, atZ. cbn. destruct l; [discriminate|]. intros H. left. congruence. Qed.
  Lemma rp_adist a E : Forall (fun l => replayable (al_sample l)) (ad_laws a) -> replayable (adist_sample a E).
  Proof.
    intros H. rewrite Forall_forall in H. unfold adist_sample. cbv zeta. apply rp_bind; [apply rp_lift|intros k]. destruct (k =? 0)%Z; [|destruct (k =? _)%Z].
    - apply rp_lift_in. intros l E1. apply H, front_in, E1.
    - apply rp_lift_in. intros l E1. apply H. unfold backR in E1. exact (adist_law_in _ _ _ E1).
    - rp1; [rp|]. rp1; [rp|]. rp1; [rp|]. apply rp_lift_in. intros l E1. apply rp_bind; [apply H; exact (adist_law_in _ _ _ E1)|]. intros mu. rp.
  Qed.
  Definition leg_turn (d : legd T) : rand T (option T) :=
    rlet! x1 := draw in rlet! x2 := draw in
    rret (if nltb x2 (ndiv (leg_pdf (lg_a d) (nsub (nmul (nofZ 2) x1) (nofZ 1))) (lg_max d)) then Some (nsub (nmul (nofZ 2) x1) (nofZ 1)) else None).
  Lemma rp_leg d : replayable (leg_sample d).
  Proof.
    apply (rp_loop _ (leg_turn d)).
    - unfold leg_turn. rp.
    - intros v r E. discriminate.
    - intros ds. unfold leg_turn, rbind, rret. destruct ds as [|x1 [|x2 ds]]; cbn; trivial. destruct (nltb x2 _); reflexivity.
  Qed.
  (** ** energies *)
  Lemma rp_te (d : tabe T) E : replayable (te_sample d E). Proof. unfold te_sample. rp. Qed.
  Lemma rp_eb (d : ebins T) E : replayable (eb_sample d E). Proof. unfold eb_sample. rp. Qed.
  Lemma rp_ge (d : gevap T) E : replayable (ge_sample d E). Proof. unfold ge_sample. rp. Qed.
  Lemma rp_lv (d : level T) E : replayable (lv_sample d E). Proof. apply rp_ret. Qed.
  Lemma rp_dp (d : dphoton T) E : replayable (dp_sample d E). Proof. apply rp_ret. Qed.
  Lemma rp_mw temp U E : replayable (@mw_sample T N temp U E).
  Proof.
    unfold mw_sample. destruct (temp E) as [t| | |] eqn:Et; [|intros ds more; reflexivity|intros ds more; reflexivity|intros ds; exact I].
    apply (rp_ext (fun ds => reject (S (length ds)) (mw_cand t) (accept U E) ds)); [intros ds; reflexivity|]. apply rp_reject; [unfold mw_cand; rp|intros v r X; discriminate].
  Qed.
  Lemma rp_ev temp U E : replayable (@ev_sample T N temp U E).
  Proof.
    unfold ev_sample. destruct (temp E) as [t| | |] eqn:Et; [|intros ds more; reflexivity|intros ds more; reflexivity|intros ds; exact I].
    apply (rp_ext (fun ds => reject (S (length ds)) (ev_cand t U E) (accept U E) ds)); [intros ds; reflexivity|]. apply rp_reject; [unfold ev_cand; rp|intros v r X; discriminate].
  Qed.
  Lemma rp_w (d : watt T) E : replayable (w_sample d E).
  Proof.
    unfold w_sample. destruct (w_a d E) as [a| | |] eqn:Ea; [|intros ds more; reflexivity|intros ds more; reflexivity|intros ds; exact I].
    destruct (w_b d E) as [b| | |] eqn:Eb; [|intros ds more; reflexivity|intros ds more; reflexivity|intros ds; exact I].
    apply (rp_ext (fun ds => reject (S (length ds)) (w_cand a b) (accept (w_U d) E) ds)); [intros ds; reflexivity|]. apply rp_reject; [unfold w_cand; rp|intros v r X; discriminate].
  Qed.
  (** ** angle and energy *)
  Lemma rp_ea (t : eat T) : replayable (ea_sample t). Proof. unfold ea_sample. rp. Qed.
  Lemma rp_tea (d : tea T) E : replayable (tea_sample d E). Proof. unfold tea_sample. rp; apply rp_ea. Qed.
  Lemma rp_kal_mu rv av : replayable (@kal_mu T N rv av). Proof. unfold kal_mu. rp. Qed.
  Lemma rp_kal (d : kal T) E : replayable (kal_sample d E). Proof. unfold kal_sample. rp; apply rp_kal_mu. Qed.
  Lemma rp_nb (d : nbody T) E : replayable (nb_sample d E).
  Proof. unfold nb_sample, nb_y, nb_maxwell. rp. Qed.
  Lemma rp_uc (d : uncor T) E : replayable (adist_sample (uc_angle d) E) -> replayable (el_sample (uc_energy d) E) -> replayable (uc_sample d E).
  Proof. intros A B. unfold uc_sample. apply rp_bind; [exact A|intros mu]. apply rp_bind; [exact B|intros e]. apply rp_ret. Qed.
  Lemma rp_md_loop E xi last : replayable last -> forall ds ps sum, Forall (fun d => replayable (ae_sample d E)) ds -> replayable (@md_loop T N ds ps E xi sum last).
  Proof.
    intros L. induction ds as [|d ds IH]; intros ps sum F; cbn [md_loop]; [exact L|]. apply Forall_cons_iff in F as [H F]. destruct ps as [|p ps]; [apply rp_ub|].
    rp1; [rp|]. cbv zeta. destruct (nltb _ _); [exact H|apply IH, F].
  Qed.
  Lemma rp_md (m : multi T) E : Forall (fun d => replayable (ae_sample d E)) (md_dists m) -> replayable (md_sample m E).
  Proof.
    intros F. unfold md_sample. apply rp_bind; [apply rp_draw|intros xi]. apply rp_md_loop; [|exact F]. apply rp_lift_in. intros d B. rewrite Forall_forall in F. apply F.
    unfold backR, atZ in B. destruct (0 <=? _)%Z; [|discriminate]. destruct (nth_error _ _) as [b|] eqn:X; [|discriminate]. assert (b = d) as <- by congruence. eapply nth_error_In. exact X.
  Qed.
  Lemma rp_sf (d : sumfis T) E : (forall r, In r [sf0 d; sf1 d; sf2 d; sf3 d] -> replayable (ae_sample (fr_dist r) E)) -> replayable (sf_sample d E).
  Proof. intros H. unfold sf_sample. rp; apply H; cbn; tauto. Qed.
  (** ** kinematics *)
  Lemma rp_cm sample awr E : replayable (sample E) -> replayable (@cm_sample T N sample awr E).
  Proof. intros H. unfold cm_sample. apply rp_bind; [exact H|intros [mu e]; apply rp_ret]. Qed.
  Definition svt_turn (y : T) : rand T (option (T * T)) :=
      let P_C49 := ndiv (nofZ 2) (nadd (nmul (nsqrt npi) y) (nofZ 2)) in
      rlet! xi := draw in
      rlet! x_sqrd :=
        (if nltb xi P_C49 then
           rlet! a := draw in rlet! b := draw in rret (nopp (nlog (nmul a b)))
         else
           rlet! a := draw in
           let c := ncos (nmul (ndiv npi (nofZ 2)) a) in
           rlet! b := draw in rlet! d := draw in rret (nsub (nopp (nlog b)) (nmul (nmul (nlog d) c) c))) in
      let x := nsqrt x_sqrd in
      rlet! m := draw in
      let mu := nsub (nmul (nofZ 2) m) (nofZ 1) in
      let P_accept := ndiv (nsqrt (nsub (nadd (nmul y y) x_sqrd) (nmul (nmul (nmul (nofZ 2) y) x) mu))) (nadd x y) in
      rlet! r := draw in rret (if nltb r P_accept then Some (x_sqrd, mu) else None).
  Lemma rp_svt_loop y : replayable (fun ds => @svt_loop T N (S (length ds)) y ds).
  Proof.
    apply (rp_fueled (fun n => svt_loop n y) (svt_turn y)).
    - unfold svt_turn. rp.
    - intros v r E. discriminate.
    - split; [reflexivity|]. intros n ds. cbn [svt_loop]. unfold svt_turn. cbv zeta. destruct ds as [|xi ds]; [reflexivity|]. unfold rbind, rret, draw. destruct (nltb xi _).
      + destruct ds as [|a [|b [|m [|r ds]]]]; cbn [next]; trivial. destruct (nltb r _); reflexivity.
      + destruct ds as [|a [|b [|d [|m [|r ds]]]]]; cbn [next]; trivial. destruct (nltb r _); reflexivity.
  Qed.
  Lemma rp_svt Ein kT awr : replayable (@svt_sample T N Ein kT awr).
  Proof.
    unfold svt_sample. cbv zeta. set (y := nsqrt _).
    match goal with |- replayable (fun ds => rbind _ ?k ds) => apply (rp_ext (rbind (fun ds => svt_loop (S (length ds)) y ds) k)) end; [intros ds; reflexivity|].
    apply rp_bind; [apply rp_svt_loop|]. intros [x mu]. rp.
  Qed.
  Definition dbrc_turn (xs : xsec T) (Ein kT awr Er_min Er_max xs_max : T) (v_n : vec T) : rand T (option (vec T)) :=
      rlet! v_t := svt_sample Ein kT awr in
      let vr := vsub v_n v_t in
      let Er := vdot vr vr in
      if (nltb Er Er_min || nltb Er_max Er)%bool then rret None else
      rlet! i_Er := rlift (get_lower_index (x_grid xs) Er) in
      rlet! xs_Er := rlift (xs_eval_i xs Er i_Er) in
      rlet! r := draw in
      rret (if nltb (nmul r xs_max) xs_Er then Some v_t else None).
  Lemma rp_dbrc_loop xs Ein kT awr lo hi M v : replayable (fun ds => @dbrc_loop T N (S (length ds)) xs Ein kT awr lo hi M v ds).
  Proof.
    apply (rp_fueled (fun n => dbrc_loop n xs Ein kT awr lo hi M v) (dbrc_turn xs Ein kT awr lo hi M v)).
    - unfold dbrc_turn. apply rp_bind; [apply rp_svt|intros w]. rp.
    - intros w r E. discriminate.
    - split; [reflexivity|]. intros n ds. cbn [dbrc_loop]. unfold dbrc_turn. cbv zeta. unfold rbind, rlift. destruct (svt_sample Ein kT awr ds) as [[w r]| | |]; cbn [next]; trivial.
      destruct (_ || _)%bool; [reflexivity|]. destruct (get_lower_index _ _); cbn [bind next]; trivial. destruct (xs_eval_i _ _ _); cbn [bind next]; trivial. destruct r as [|x r]; cbn [draw next]; trivial. unfold rret. destruct (nltb _ _); reflexivity.
  Qed.
  Lemma rp_dbrc xs Ein kT awr : replayable (@dbrc_sample T N xs Ein kT awr).
  Proof.
    unfold dbrc_sample. cbv zeta. destruct (max_xs_value xs _ _) as [M| | |]; [|intros ds more; reflexivity|intros ds more; reflexivity|intros ds; exact I].
    eapply rp_ext; [|apply (rp_dbrc_loop xs Ein kT awr)]. intros ds. reflexivity.
  Qed.
  Lemma rp_elastic (e : elastic_obj T) E : replayable (e_brd e E (e_kT e) (e_awr e)) -> replayable (e_angle e E) -> replayable (@elastic_sample T N e E).
  Proof. intros B A. unfold elastic_sample. rp; [exact B|exact A]. Qed.
  (** ** thermal scattering *)
  Lemma rp_coh (c : coh T) E : replayable (coh_sample c E). Proof. unfold coh_sample. rp. Qed.
  Lemma rp_smear r1 r2 f k n : replayable (@smear T N r1 r2 f k n). Proof. unfold smear. rp. Qed.
  Lemma rp_inco (d : inco T) E : replayable (inco_sample d E). Proof. unfold inco_sample. rp; apply rp_smear. Qed.
  Lemma rp_dce (d : dce T) E : replayable (dce_sample d E). Proof. unfold dce_sample, dce_index. rp. Qed.
  Lemma rp_ct t n xi j : replayable (@ct_cosine T N t n xi j). Proof. unfold ct_cosine. rp; apply rp_smear. Qed.
  Lemma rp_cedc (d : cedc T) E : replayable (cedc_sample d E). Proof. unfold cedc_sample, cedc_sample_unit, cedc_sample_nearest. rp; apply rp_ct. Qed.
  Lemma rp_inin (d : inin T) E : replayable (inin_sample d E). Proof. unfold inin_sample. destruct (ii_ae d); [apply rp_dce|apply rp_cedc]. Qed.
End Samplers.
