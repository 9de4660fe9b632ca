(** * Sampling a well-formed distribution stays inside its data *)
From Coq Require Import Lia List ZArith Bool ZifyBool ZifyNat.
From Verif Require Import Base L_Search M_Interp M_Tab1D M_PC M_OutE M_Spectra M_Kin M_Laws S_Tab1D L_Tab1D L_PC S_Sound.
Import ListNotations.
Local Open Scope Z_scope.

Section Sound.
  Context {T : Type} {N : Num T} (P : T -> Prop) (O : NumOrder N P) (P0 : P (nofZ 0)) (P1 : P (nofZ 1)).
  Let U := unit_draw P.
  Definition fine {A} (s : rand T A) : Prop := forall ds, Forall U ds -> match s ds with Ok (_, r) => Forall U r | NoDraw => True | _ => False end.
  Lemma fine_ret {A} (v : A) : fine (rret v). Proof using P. intros ds H. exact H. Qed.
  Lemma fine_bind {A B} (m : rand T A) (k : A -> rand T B) : fine m -> (forall v, fine (k v)) -> fine (rbind m k).
  Proof using P. intros M K ds H. unfold rbind. specialize (M ds H). destruct (m ds) as [[v r]| | |]; try exact M. exact (K v r M). Qed.
  Lemma fine_draw {B} (k : T -> rand T B) : (forall x, U x -> fine (k x)) -> fine (rbind draw k).
  Proof using P. intros K ds H. unfold rbind. destruct ds as [|x ds]; cbn [draw]; [exact I|]. apply Forall_cons_iff in H as [H1 H2]. exact (K x H1 ds H2). Qed.
  Lemma fine_lift {A B} (m : res A) v (k : A -> rand T B) : m = Ok v -> fine (k v) -> fine (rbind (rlift m) k).
  Proof using P. intros -> K ds H. unfold rbind, rlift. cbn [bind]. exact (K ds H). Qed.
  Lemma fine_last {A} (m : res A) v : m = Ok v -> fine (rlift m).
  Proof using P. intros -> ds H. exact H. Qed.
  Lemma fine_reject n c ok : fine c -> fine (reject n c ok).
  Proof using P. intros C. induction n as [|n IH]; cbn [reject]; [intros ds H; exact I|]. apply fine_bind; [exact C|]. intros v. destruct (ok v); [apply fine_ret|exact IH]. Qed.
  Lemma fine_fuel {A} (s : nat -> rand T A) : (forall n, fine (s n)) -> fine (fun ds => s (S (length ds)) ds).
  Proof using P. intros H ds. apply (H (S (length ds))). Qed.

  (** ** tables *)
  Lemma pc_ok t xi : sound_pc P t -> U xi -> exists h, pc_sample t xi = Ok h.
  Proof using O P0 P1.
    intros [(v & p & c & i & M & F) (c0 & E0 & Pc & C0)] (Px & X0 & X1).
    destruct (sample_safe P O P1 v p c i t xi c0 M F Px X1 E0) as [[_ H]|[H _]]; [exact H|].
    exfalso. pose proof (no_trans O _ _ _ P0 Px Pc X0 H). congruence.
  Qed.
  Lemma front_ok {A} (v : list A) : 1 <= sizeZ v -> exists a, frontR v = Ok a.
  Proof using P. intros H. apply atZ_ok. lia. Qed.
  Lemma back_ok {A} (v : list A) : 1 <= sizeZ v -> exists a, backR v = Ok a.
  Proof using P. intros H. unfold backR. apply atZ_ok. lia. Qed.
  Lemma pc_sizes t : sound_pc P t -> 1 <= sizeZ (pc_values t) /\ sizeZ (pc_pdfs t) = sizeZ (pc_values t) /\ sizeZ (pc_cdf t) = sizeZ (pc_values t) /\ is_sorted (pc_values t) = true.
  Proof using P. intros [(v & p & c & i & M & F) _]. destruct (make_pc_accepted _ _ _ _ _ M). rewrite ac_values, ac_pdf. auto. Qed.
  Lemma pc_lookup t xi : sound_pc P t -> U xi -> exists k, lower_bound (pc_cdf t) xi = Ok k /\ 1 <= k < sizeZ (pc_values t).
  Proof using O P0 P1.
    intros [(v & p & c & i & M & F) (c0 & E0 & Pc & C0)] (Px & X0 & X1).
    pose proof (make_pc_accepted _ _ _ _ _ M) as A. destruct (accepted_lookup P O P1 _ _ _ _ _ xi A F Px X1) as (k & L & E & B). exists k. split; [exact E|].
    rewrite (ac_values _ _ _ _ _ A). split; [|lia]. destruct (Z.eq_dec k 0) as [->|]; [|lia]. exfalso. destruct L as (_ & _ & L). specialize (L 0 c0 ltac:(lia) E0).
    assert (nltb (nofZ 0) xi = false) by (eapply (no_negtrans O) with (y := c0); eauto). congruence.
  Qed.
  Lemma tab_ok t E : sound_tab P t -> P E -> exists w, tab_eval t E = Ok w.
  Proof using O. intros (NBT & INT & x & y & V & S & F & M) PE. exact (tab_eval_safe P O NBT INT x y t E V S F PE M). Qed.

  (** ** incident energies *)
  Lemma select_ok energy E : 2 <= sizeZ energy -> Forall P energy -> P E -> is_sorted energy = true -> exists l f, select energy E = Ok (l, f) /\ 0 <= l /\ l + 1 < sizeZ energy.
  Proof using O.
    intros S F PE I. destruct (lower_bound_spec P O energy E F PE I) as (k & Ek & K & _). unfold select. rewrite Ek. cbn [bind].
    destruct (Z.eqb_spec k 0); [exists 0, (nofZ 0); repeat split; lia|]. destruct (Z.eqb_spec k (sizeZ energy)); [do 2 eexists; repeat split; lia|].
    destruct (atZ_ok energy (k - 1)) as [e1 E1]; [lia|]. destruct (atZ_ok energy (k - 1 + 1)) as [e2 E2]; [lia|]. rewrite E1. cbn [bind]. rewrite E2. cbn [bind]. do 2 eexists. repeat split; lia.
  Qed.
  Lemma limits_ok {tbl} (mn mx : tbl -> res T) tables l f (Q : tbl -> Prop) : Forall Q tables -> (forall t, Q t -> exists a, mn t = Ok a) -> (forall t, Q t -> exists a, mx t = Ok a) ->
    0 <= l -> l + 1 < sizeZ tables -> exists u, limits mn mx tables l f = Ok u /\ Q (u_t1 u) /\ Q (u_t2 u).
  Proof using P.
    intros F A B L1 L2. rewrite Forall_forall in F. destruct (atZ_ok tables l) as [t1 E1]; [lia|]. destruct (atZ_ok tables (l + 1)) as [t2 E2]; [lia|].
    pose proof (F t1 (atZ_In _ _ _ E1)) as Q1. pose proof (F t2 (atZ_In _ _ _ E2)) as Q2. destruct (A t1 Q1) as [a1 A1], (B t1 Q1) as [b1 B1], (A t2 Q2) as [a2 A2], (B t2 Q2) as [b2 B2].
    unfold limits. rewrite E1. cbn [bind]. rewrite A1. cbn [bind]. rewrite B1. cbn [bind]. rewrite E2. cbn [bind]. rewrite A2. cbn [bind]. rewrite B2. cbn [bind]. eexists. split; [reflexivity|]. split; assumption.
  Qed.
  Lemma made {tbl D} (mk : list T -> list tbl -> D) energy tables d : (guard (is_sorted energy) ;; guard (Nat.eqb (length energy) (length tables)) ;; Ok (mk energy tables)) = Ok d ->
    is_sorted energy = true /\ sizeZ tables = sizeZ energy /\ d = mk energy tables.
  Proof using P.
    intros H. destruct (is_sorted energy); [|discriminate]. cbn [guard bind] in H. destruct (Nat.eqb_spec (length energy) (length tables)) as [L|]; [|discriminate]. cbn [guard bind] in H.
    injection H as <-. unfold sizeZ. rewrite L. auto.
  Qed.
  Lemma fine_te energy tables d E : make_tabe energy tables = Ok d -> 2 <= sizeZ energy -> Forall P energy -> Forall (sound_pc P) tables -> P E -> fine (te_sample d E).
  Proof using O P0 P1.
    intros M S F Q PE. apply made in M as (I & L & ->). destruct (select_ok energy E S F PE I) as (l & f & Es & L1 & L2).
    destruct (limits_ok pc_min pc_max tables l f (sound_pc P) Q) as (u & Eu & Q1 & Q2); [intros t V; apply front_ok; apply (pc_sizes t V)|intros t V; apply back_ok; apply (pc_sizes t V)|lia|lia|].
    unfold te_sample. cbn [te_in te_tables]. apply (fine_lift _ (l, f)); [exact Es|]. apply (fine_lift _ u); [exact Eu|]. apply fine_draw. intros x1 X1. apply fine_draw. intros x2 X2.
    destruct (nltb f x1); [destruct (pc_ok _ x2 Q1 X2) as [h H]|destruct (pc_ok _ x2 Q2 X2) as [h H]]; apply (fine_lift _ h); auto using fine_ret.
  Qed.
  Lemma ea_segment t xi l : sound_eat P t -> 0 <= l -> l + 1 < sizeZ (ea_energy t) -> (exists e, pc_histogram (ea_pc t) xi l = Ok e) /\ exists e, pc_linear (ea_pc t) xi l = Ok e.
  Proof using P.
    intros ([V _] & _ & _) L1 L2. destruct V as (v & p & c & i & M & _). destruct (make_pc_accepted _ _ _ _ _ M) as [A1 A2 A3 A4 A5 A6 A7 A8 _ _ _ _ _]. cbn [pc_values pc_pdfs pc_cdf pc_interp] in *. subst v p.
    destruct (atZ_ok (ea_energy t) l) as [v1 V1]; [lia|]. destruct (atZ_ok (ea_energy t) (l + 1)) as [v2 V2]; [lia|]. destruct (atZ_ok (ea_pdf t) l) as [p1 Q1]; [lia|]. destruct (atZ_ok (ea_pdf t) (l + 1)) as [p2 Q2]; [lia|].
    destruct (atZ_ok (ea_cdf t) l) as [c1 C1]; [lia|]. unfold pc_histogram, pc_linear, ea_pc. cbn [pc_values pc_pdfs pc_cdf]. rewrite V1, V2, Q1, Q2, C1. cbn [bind]. split; eexists; reflexivity.
  Qed.
  Lemma fine_ea t : sound_eat P t -> fine (ea_sample t).
  Proof using O P0 P1.
    intros V. pose proof V as (V1 & V2 & V3). unfold ea_sample. apply fine_draw. intros xi X. destruct (pc_lookup _ xi V1 X) as (k & Ek & K). cbn [pc_cdf pc_values] in *. apply (fine_lift _ k); [exact Ek|]. cbv zeta.
    destruct (pc_sizes _ V1) as (S1 & S2 & S3 & _). cbn [pc_values pc_pdfs pc_cdf] in *.
    assert (A : forall j x2, 0 <= j < sizeZ (ea_energy t) -> U x2 -> exists a mu, atZ (ea_angles t) j = Ok a /\ pc_sample a x2 = Ok mu).
    { intros j x2 J X2. destruct (atZ_ok (ea_angles t) j) as [a Ea]; [unfold sizeZ in *; lia|]. rewrite Forall_forall in V3. destruct (pc_ok a x2 (V3 a (atZ_In _ _ _ Ea)) X2) as [mu Em]. eauto. }
    destruct (ea_segment t xi (k - 1) V ltac:(lia) ltac:(lia)) as [[e1 G1] [e2 G2]].
    assert (Tail : forall j (e : T), 0 <= j < sizeZ (ea_energy t) -> fine (rbind (rlift (atZ (ea_angles t) j)) (fun a => rbind draw (fun x2 => rbind (rlift (pc_sample a x2)) (fun mu => rret (clamp_mu mu, e)))))).
    { intros j e J. destruct (atZ_ok (ea_angles t) j) as [a Ea]; [unfold sizeZ in *; lia|]. apply (fine_lift _ a); [exact Ea|]. apply fine_draw. intros x2 X2. destruct (A j x2 J X2) as (a' & mu & Ea' & Em). assert (a' = a) as -> by congruence.
      apply (fine_lift _ mu); [exact Em|]. apply fine_ret. }
    assert (Flat : exists b, match ea_interp t with Histogram => Ok true | _ => let! p1 := atZ (ea_pdf t) (k - 1) in let! p2 := atZ (ea_pdf t) (k - 1 + 1) in Ok (neqb p1 p2) end = Ok b).
    { destruct (atZ_ok (ea_pdf t) (k - 1)) as [p1 Q1]; [lia|]. destruct (atZ_ok (ea_pdf t) (k - 1 + 1)) as [p2 Q2]; [lia|]. rewrite Q1. cbn [bind]. rewrite Q2. cbn [bind]. destruct (ea_interp t); eexists; reflexivity. }
    destruct Flat as [b Fb]. apply (fine_lift _ b); [exact Fb|]. destruct b.
    - apply (fine_lift _ e1); [exact G1|]. apply Tail. lia.
    - apply (fine_lift _ e2); [exact G2|]. destruct (atZ_ok (ea_cdf t) (k - 1)) as [c1 C1]; [lia|]. destruct (atZ_ok (ea_cdf t) (k - 1 + 1)) as [c2 C2]; [lia|].
      apply (fine_lift _ c1); [exact C1|]. apply (fine_lift _ c2); [exact C2|]. apply Tail. destruct (nltb _ _); lia.
  Qed.
  Lemma fine_tea energy tables d E : make_tea energy tables = Ok d -> 2 <= sizeZ energy -> Forall P energy -> Forall (sound_eat P) tables -> P E -> fine (tea_sample d E).
  Proof using O P0 P1.
    intros M S F Q PE. apply made in M as (I & L & ->). destruct (select_ok energy E S F PE I) as (l & f & Es & L1 & L2).
    assert (N1 : forall t, sound_eat P t -> 1 <= sizeZ (ea_energy t)) by (intros t (V & _); apply (pc_sizes _ V)).
    destruct (limits_ok ea_min ea_max tables l f (sound_eat P) Q) as (u & Eu & Q1 & Q2); [intros t V; apply front_ok; apply (N1 t V)|intros t V; apply back_ok; apply (N1 t V)|lia|lia|].
    unfold tea_sample. cbn [tea_in tea_tables]. apply (fine_lift _ (l, f)); [exact Es|]. apply (fine_lift _ u); [exact Eu|]. apply fine_draw. intros x1 X1.
    destruct (nltb f x1); (apply fine_bind; [apply fine_ea; assumption|intros v; apply fine_ret]).
  Qed.
  Lemma k_param_ok t v h : sound_kt P t -> sizeZ v = sizeZ (k_energy t) -> P h -> exists y, k_param t v h = Ok y.
  Proof using O.
    intros (V & F & _ & _ & _) Sv Ph. destruct (pc_sizes _ V) as (S1 & _ & _ & I). cbn [pc_values] in *.
    assert (PF : forall i a, atZ (k_energy t) i = Ok a -> P a) by (intros i a Ea; rewrite Forall_forall in F; exact (F a (atZ_In _ _ _ Ea))).
    unfold k_param. destruct (front_ok (k_energy t) S1) as [e0 E0]. rewrite E0. cbn [bind]. rewrite (no_leb O) by (assumption || exact (PF _ _ E0)).
    destruct (nltb e0 h) eqn:C0; cbn [negb]; [|apply front_ok; lia]. destruct (back_ok (k_energy t) S1) as [en En]. rewrite En. cbn [bind]. unfold backR in En. rewrite (no_leb O) by (assumption || exact (PF _ _ En)).
    destruct (nltb h en) eqn:C1; cbn [negb]; [|apply back_ok; lia].
    destruct (lower_bound_spec P O (k_energy t) h F Ph I) as (k & Ek & K & K1 & K2). rewrite Ek. cbn [bind].
    assert (k <> 0). { intros ->. specialize (K2 0 e0 ltac:(lia) E0). congruence. }
    assert (k <> sizeZ (k_energy t)). { intros ->. specialize (K1 (sizeZ (k_energy t) - 1) en ltac:(lia) En). pose proof (no_trans O _ _ _ Ph (PF _ _ En) Ph C1 K1) as X. rewrite (no_irrefl O) in X by exact Ph. discriminate. }
    destruct (atZ_ok (k_energy t) (k - 1)) as [e1 E1]; [lia|]. destruct (atZ_ok (k_energy t) (k - 1 + 1)) as [e2 E2]; [lia|]. destruct (atZ_ok v (k - 1)) as [y1 Y1]; [lia|]. destruct (atZ_ok v (k - 1 + 1)) as [y2 Y2]; [lia|].
    rewrite E1. cbn [bind]. rewrite Y1. cbn [bind]. rewrite E2. cbn [bind]. rewrite Y2. cbn [bind]. destruct (k_interp t); eexists; reflexivity.
  Qed.
  Lemma fine_kal_mu r a : fine (kal_mu r a).
  Proof using P. unfold kal_mu. apply fine_draw. intros x _. destruct (nltb r x); apply fine_draw; intros y _; apply fine_ret. Qed.
  Lemma fine_kal energy tables d E : make_kal energy tables = Ok d -> 2 <= sizeZ energy -> Forall P energy -> Forall (sound_kt P) tables -> P E -> fine (kal_sample d E).
  Proof using O P0 P1.
    intros M S F Q PE. apply made in M as (I & L & ->). destruct (select_ok energy E S F PE I) as (l & f & Es & L1 & L2).
    assert (N1 : forall t, sound_kt P t -> 1 <= sizeZ (k_energy t)) by (intros t (V & _); apply (pc_sizes _ V)).
    destruct (limits_ok k_min k_max tables l f (sound_kt P) Q) as (u & Eu & Q1 & Q2); [intros t V; apply front_ok; apply (N1 t V)|intros t V; apply back_ok; apply (N1 t V)|lia|lia|].
    unfold kal_sample. cbn [kal_in kal_tables]. apply (fine_lift _ (l, f)); [exact Es|]. apply (fine_lift _ u); [exact Eu|]. apply fine_draw. intros x1 X1. apply fine_draw. intros x2 X2.
    assert (Tail : forall t a b, sound_kt P t -> fine (rbind (rlift (k_sample t x2)) (fun h => rbind (rlift (k_Rof t h)) (fun Rv => rbind (rlift (k_Aof t h)) (fun Av => rbind (kal_mu Rv Av) (fun mu => rret (mu, unit_base (u_min u) (u_max u) h a b))))))).
    { intros t a b V. pose proof V as (V1 & _ & VR & VA & VP). destruct (pc_ok _ x2 V1 X2) as [h H]. specialize (VP x2 h X2 H). apply (fine_lift _ h); [exact H|].
      destruct (k_param_ok t (k_R t) h V ltac:(unfold sizeZ; lia) VP) as [r Er]. destruct (k_param_ok t (k_A t) h V ltac:(unfold sizeZ; lia) VP) as [av Ea].
      apply (fine_lift _ r); [exact Er|]. apply (fine_lift _ av); [exact Ea|]. apply fine_bind; [apply fine_kal_mu|intros mu; apply fine_ret]. }
    destruct (nltb f x1); apply Tail; assumption.
  Qed.
  (** ** angular laws *)
  Hypothesis Hbins : forall bounds b xi, make_bins bounds = Ok b -> unit_draw P xi -> exists mu, bins_sample b xi = Ok mu.
  Lemma fine_angle l : sound_angle P l -> fine (al_sample l).
  Proof using O P0 P1 Hbins.
    intros [|bounds b M|t V]; cbn [al_sample isotropic angle_bins angle_table]; apply fine_draw; intros x X.
    - apply fine_ret.
    - destruct (Hbins bounds b x M X) as [mu E]. exact (fine_last _ _ E).
    - destruct (pc_ok t x V X) as [h E]. apply (fine_lift _ h); [exact E|apply fine_ret].
  Qed.
  Lemma fine_adist ad E : sound_adist P ad -> P E -> fine (adist_sample ad E).
  Proof using O P0 P1 Hbins.
    intros (energy & laws & M & NE & F & L) PE. unfold make_adist in M. destruct (Nat.eqb_spec (length energy) (length laws)) as [Ln|]; [|discriminate]. cbn [guard bind] in M. destruct (is_sorted energy) eqn:I; [|discriminate]. cbn [guard bind] in M. injection M as <-.
    assert (S1 : 1 <= sizeZ laws) by (destruct energy; [contradiction|]; unfold sizeZ; cbn [length] in Ln; lia). assert (S2 : sizeZ laws = sizeZ energy) by (unfold sizeZ; lia). rewrite Forall_forall in L.
    assert (A : forall k, 0 <= k < sizeZ laws -> exists l, atZ laws k = Ok l /\ fine (al_sample l)).
    { intros k K. destruct (atZ_ok laws k K) as [l El]. exists l. split; [exact El|]. apply fine_angle, L. exact (atZ_In _ _ _ El). }
    destruct (lower_bound_spec P O energy E F PE I) as (k & Ek & K & _). unfold adist_sample. cbn [ad_energy ad_laws]. apply (fine_lift _ k); [exact Ek|].
    destruct (Z.eqb_spec k 0). { destruct (A 0 ltac:(lia)) as (l & El & G). apply (fine_lift _ l); [exact El|exact G]. }
    destruct (Z.eqb_spec k (sizeZ energy)). { destruct (A (sizeZ laws - 1) ltac:(lia)) as (l & El & G). apply (fine_lift _ l); [exact El|exact G]. }
    destruct (atZ_ok energy (k - 1)) as [e1 E1]; [lia|]. destruct (atZ_ok energy (k - 1 + 1)) as [e2 E2]; [lia|]. cbv zeta. apply (fine_lift _ e1); [exact E1|]. apply (fine_lift _ e2); [exact E2|].
    apply fine_draw. intros xi X. destruct (A (if nltb (ndiv (nsub E e1) (nsub e2 e1)) xi then k - 1 else k - 1 + 1)) as (l & El & G); [destruct (nltb _ _); lia|].
    apply (fine_lift _ l); [exact El|]. apply fine_bind; [exact G|intros mu; apply fine_ret].
  Qed.
  (** ** energy laws *)
  Ltac draws := repeat (apply fine_draw; intros ? _); apply fine_ret.
  Lemma fine_energy e E : sound_energy P e -> P E -> fine (el_sample e E).
  Proof using O P0 P1.
    intros [d|d|energy tables d M S F Q|t W Ht|t W Ht|ta tb W Ha Hb] PE; cbn [el_sample level_law dphoton_law tabe_law mw_law ev_law watt_law fst snd].
    - unfold lv_sample. apply fine_ret.
    - unfold dp_sample. apply fine_ret.
    - eapply fine_te; eassumption.
    - destruct (tab_ok t E Ht PE) as [w Ew]. unfold mw_sample. apply (fine_fuel (fun n => rbind (rlift (tab_eval t E)) (fun t0 => reject n (mw_cand t0) (accept W E)))). intros n. apply (fine_lift _ w); [exact Ew|]. apply fine_reject. unfold mw_cand. draws.
    - destruct (tab_ok t E Ht PE) as [w Ew]. unfold ev_sample. apply (fine_fuel (fun n => rbind (rlift (tab_eval t E)) (fun t0 => reject n (ev_cand t0 W E) (accept W E)))). intros n. apply (fine_lift _ w); [exact Ew|]. apply fine_reject. unfold ev_cand. draws.
    - destruct (tab_ok ta E Ha PE) as [a Ea], (tab_ok tb E Hb PE) as [b Eb]. unfold w_sample. cbn [w_a w_b w_U].
      apply (fine_fuel (fun n => rbind (rlift (tab_eval ta E)) (fun a0 => rbind (rlift (tab_eval tb E)) (fun b0 => reject n (w_cand a0 b0) (accept W E))))). intros n.
      apply (fine_lift _ a); [exact Ea|]. apply (fine_lift _ b); [exact Eb|]. apply fine_reject. unfold w_cand. draws.
  Qed.
  Lemma fine_nb d E : fine (nb_sample d E).
  Proof using P.
    unfold nb_sample, nb_maxwell. cbv zeta.
    assert (Y : forall n, fine (nb_y n)). { intros n. unfold nb_y, nb_maxwell. repeat match goal with |- fine (if ?b then _ else _) => destruct b end; repeat (first [apply fine_ret | apply fine_draw; intros ? _ | apply fine_bind; [|intros ?]]). }
    repeat (first [apply fine_ret | apply fine_draw; intros ? _ | apply fine_bind; [first [apply Y|idtac]|intros ?]]).
  Qed.
  Lemma fine_law d E : sound_law P d -> P E -> fine (ae_sample d E).
  Proof using O P0 P1 Hbins.
    intros [ad e A B|energy tables d' M S F Q|energy tables d' M S F Q|d'] PE; cbn [ae_sample uncor_law kal_law tea_law nbody_law].
    - unfold uc_sample. cbn [uc_angle uc_energy]. apply fine_bind; [apply fine_adist; assumption|intros mu]. apply fine_bind; [apply fine_energy; assumption|intros x]. apply fine_ret.
    - eapply fine_kal; eassumption.
    - eapply fine_tea; eassumption.
    - apply fine_nb.
  Qed.
  Lemma fine_md_loop E xi last : P E -> fine last -> forall l sum, Forall (fun p => sound_law P (fst p) /\ sound_tab P (snd p)) l -> fine (md_loop (map fst l) (map (fun p : aelaw T * tab T => tab_eval (snd p)) l) E xi sum last).
  Proof using O P0 P1 Hbins.
    intros PE HL. induction l as [|[d t] l IH]; intros sum F; cbn [map md_loop fst snd]; [exact HL|]. apply Forall_cons_iff in F as [[A B] F]. cbn [fst snd] in A, B.
    destruct (tab_ok t E B PE) as [w Ew]. apply (fine_lift _ w); [exact Ew|]. cbv zeta. destruct (nltb _ _); [apply fine_law; assumption|apply IH, F].
  Qed.
  Lemma fine_dist d E : sound_dist P d -> P E -> fine (ae_sample d E).
  Proof using O P0 P1 Hbins.
    intros D PE. induction D as [d H|l NE F|awr q d D IH]; cbn [ae_sample multi_law cm_law].
    - apply fine_law; assumption.
    - unfold md_sample. cbn [md_dists md_probs]. apply fine_draw. intros xi _. apply fine_md_loop; [exact PE| |exact F].
      destruct (back_ok (map fst l)) as [d Ed]; [destruct l; [contradiction|]; unfold sizeZ; cbn [map length]; lia|]. apply (fine_lift _ d); [exact Ed|].
      unfold backR in Ed. apply atZ_In, in_map_iff in Ed as ([d' t] & <- & Hin). rewrite Forall_forall in F. destruct (F _ Hin) as [A _]. apply fine_law; assumption.
    - unfold cm_sample. apply fine_bind; [exact IH|]. intros [mu e]. apply fine_ret.
  Qed.
  (** ** elastic scattering with the free-gas target *)
  Lemma fine_svt_loop n y : fine (svt_loop n y).
  Proof using P.
    induction n as [|n IH]; cbn [svt_loop]; [intros ds H; exact I|]. cbv zeta. apply fine_draw. intros xi _. apply fine_bind.
    - destruct (nltb _ _); repeat (apply fine_draw; intros ? _); apply fine_ret.
    - intros x. apply fine_draw. intros m _. apply fine_draw. intros r _. destruct (nltb _ _); [apply fine_ret|exact IH].
  Qed.
  Lemma fine_svt E kT awr : fine (svt_sample E kT awr).
  Proof using P.
    unfold svt_sample. apply (fine_fuel (fun n => rbind (svt_loop n (nsqrt (ndiv (nmul awr E) kT))) (fun '(x_sqrd, mu) => rbind draw (fun xi => rret (vmul (rotate (mkVec (nofZ 0) (nofZ 0) (nofZ 1)) mu (nmul (nmul (nofZ 2) npi) xi)) (nsqrt (ndiv (nmul x_sqrd kT) awr))))))).
    intros n. apply fine_bind; [apply fine_svt_loop|]. intros [x mu]. apply fine_draw. intros xi _. apply fine_ret.
  Qed.
  Theorem sound_elastic e ad E ds : e_angle e = adist_sample ad -> e_brd e = svt_sample -> sound_adist P ad -> P E -> Forall (unit_draw P) ds -> returns_or_waits (elastic_sample e E ds).
  Proof using O P0 P1 Hbins.
    intros EA EB A PE F. assert (H : fine (elastic_sample e E)).
    { unfold elastic_sample. cbv zeta. rewrite EA, EB. apply fine_bind; [destruct (_ && _)%bool; [apply fine_ret|apply fine_svt]|intros v]. apply fine_bind; [apply fine_adist; assumption|intros mu]. apply fine_draw. intros xi _. apply fine_ret. }
    specialize (H ds F). destruct (elastic_sample e E ds) as [[v r]| | |]; try exact H; exact I.
  Qed.
  Theorem sound_sample d E ds : sound_dist P d -> P E -> Forall (unit_draw P) ds -> returns_or_waits (ae_sample d E ds).
  Proof using O P0 P1 Hbins. intros D PE F. pose proof (fine_dist d E D PE ds F) as H. destruct (ae_sample d E ds) as [[v r]| | |]; try exact H; exact I. Qed.
End Sound.
