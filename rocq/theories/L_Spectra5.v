(** * Level scattering, discrete photons, mixtures *)
From Coquelicot Require Import Coquelicot.
From Verif Require Import Base NumR L_Search L_SearchR M_Interp M_PC M_Grid M_Spectra S_Spectra L_Interp2 L_PCR L_Legendre L_Angle L_Spectra.
From Coq Require Import ZifyBool ZifyNat.
Local Open Scope R_scope.

Lemma make_level_spec Q A d : @make_level R NumR Q A = Ok d <-> 0 < A /\ d = mkLevel ((A + 1) / A * Rabs Q) ((A / (A + 1)) * (A / (A + 1))).
Proof.
  unfold make_level. change (@nleb R NumR) with Rleb. change (@nofZ R NumR 0) with 0. destruct (Rleb_spec A 0); [split; [discriminate|lra]|].
  assert (E : (A + 1) * Rabs Q / A = (A + 1) / A * Rabs Q) by (field; lra).
  split; [intros EE; apply Ok_eq in EE; subst d; split; [assumption|]; rnum; rewrite E; reflexivity|intros (_ & ->); rnum; rewrite E; reflexivity].
Qed.
Lemma make_level_throw Q A : A <= 0 -> @make_level R NumR Q A = Throw.
Proof. intros H. unfold make_level. change (@nleb R NumR) with Rleb. change (@nofZ R NumR 0) with 0. destruct (Rleb_spec A 0); [reflexivity|lra]. Qed.
Lemma level_props Q A d : @make_level R NumR Q A = Ok d -> exists c1 c2, c1 = (A + 1) / A * Rabs Q /\ c2 = (A / (A + 1)) ^ 2 /\ 0 < c2 < 1 /\ 0 <= c1 /\ (forall E ds, lv_sample d E ds = Ok (c2 * (E - c1), ds)).
Proof.
  intros H. apply make_level_spec in H as [HA ->]. exists ((A + 1) / A * Rabs Q), ((A / (A + 1)) ^ 2). split; [reflexivity|]. split; [reflexivity|].
  assert (0 < A / (A + 1)) by (apply Rdiv_lt_0_compat; lra). assert (A / (A + 1) < 1). { apply (Rmult_lt_reg_r (A + 1)); [lra|]. replace (A / (A + 1) * (A + 1)) with A by (field; lra). lra. }
  split; [cbn [pow]; nra|]. split. { apply Rmult_le_pos; [left; apply Rdiv_lt_0_compat; lra|apply Rabs_pos]. }
  intros E ds. unfold lv_sample, rret. cbn [lv_C1 lv_C2]. rnum. f_equal. f_equal. ring.
Qed.
Lemma make_dphoton_spec lp Eg A d : @make_dphoton R NumR lp Eg A = Ok d <-> (lp = 0 \/ lp = 1 \/ lp = 2)%Z /\ 0 < Eg /\ 0 < A /\ d = mkDP lp A Eg.
Proof.
  unfold make_dphoton. change (@nleb R NumR) with Rleb. change (@nofZ R NumR 0) with 0.
  destruct ((lp =? 0) || (lp =? 1) || (lp =? 2))%Z eqn:B; cbn [guard bind]; [|split; [discriminate|intros ([-> | [-> | ->]] & _); discriminate]].
  destruct (Rleb_spec Eg 0); [split; [discriminate|lra]|]. destruct (Rleb_spec A 0); [split; [discriminate|lra]|].
  split; [intros EE; apply Ok_eq in EE; subst d; split; [lia|split; [lra|split; [lra|reflexivity]]]|intros (_ & _ & _ & ->); reflexivity].
Qed.
Lemma dp_value lp A Eg E ds : @dp_sample R NumR (mkDP lp A Eg) E ds = Ok (if Z.eq_dec lp 0 then Eg else if Z.eq_dec lp 1 then Eg else Eg + A / (A + 1) * E, ds).
Proof.
  unfold dp_sample. cbn [dp_lp dp_A dp_Eg]. unfold rret. destruct (Z.eqb_spec lp 0), (Z.eqb_spec lp 1), (Z.eq_dec lp 0), (Z.eq_dec lp 1); try lia; cbn [orb]; try contradiction; reflexivity.
Qed.

(** ** mixtures *)
Lemma cum_S d p : (d < length p)%nat -> cumulative (S d) p = cumulative d p + nth d p 0.
Proof.
  revert p. induction d as [|d IH]; intros p H; destruct p as [|x p]; cbn [length] in H; try lia.
  - cbn [cumulative nth]. destruct p; cbn [cumulative]; lra.
  - change (cumulative (S (S d)) (x :: p)) with (x + cumulative (S d) p). rewrite IH by lia. cbn [cumulative nth]. lra.
Qed.
Lemma cum_mono p : Forall (fun x => 0 <= x) p -> forall a b, (a <= b)%nat -> cumulative a p <= cumulative b p.
Proof.
  intros F. assert (Nn : forall q, Forall (fun x => 0 <= x) q -> forall b, 0 <= cumulative b q).
  { induction 1 as [|x q Hx Hq IH]; intros b; destruct b; cbn [cumulative]; try lra. specialize (IH b). lra. }
  induction F as [|x q Hx Hq IH]; intros a b H; [destruct a, b; cbn [cumulative]; lra|]. destruct a as [|a]; [exact (Nn (x :: q) (Forall_cons x Hx Hq) b)|]. destruct b as [|b]; [lia|]. cbn [cumulative]. specialize (IH a b ltac:(lia)). lra.
Qed.
Lemma md_loop_sel E xi last : forall ds ps pv s, length ds = length ps -> evaluate_to ps E pv ->
  forall d def, (d < length ds)%nat -> (forall j, (j < d)%nat -> s + cumulative (S j) pv <= xi) -> xi < s + cumulative (S d) pv ->
  forall q, @md_loop R NumR ds ps E xi s last q = ae_sample (nth d ds def) E q.
Proof.
  induction ds as [|a ds IH]; intros ps pv s L Ev d def Hd Hlo Hhi q; cbn [length] in Hd; [lia|]. destruct ps as [|p ps]; [discriminate|]. inversion Ev as [|? v ? pv' Hv Ev']; subst.
  cbn [md_loop]. unfold rbind at 1, rlift at 1. rewrite Hv. cbn [bind]. change (@nltb R NumR) with Rltb. change (@nadd R NumR s v) with (s + v).
  destruct d as [|d].
  - cbn [cumulative] in Hhi. replace (Rltb xi (s + v)) with true; [reflexivity|]. symmetry. apply Rltb_true. destruct pv'; cbn [cumulative] in Hhi; lra.
  - specialize (Hlo 0%nat ltac:(lia)) as H0. cbn [cumulative] in H0. replace (Rltb xi (s + v)) with false by (symmetry; apply Rltb_false; destruct pv'; cbn [cumulative] in H0; lra).
    cbn [nth]. apply IH with (pv := pv'); [cbn in L; lia|exact Ev'|lia| |].
    + intros j Hj. specialize (Hlo (S j) ltac:(lia)). change (cumulative (S (S j)) (v :: pv')) with (v + cumulative (S j) pv') in Hlo. lra.
    + change (cumulative (S (S d)) (v :: pv')) with (v + cumulative (S d) pv') in Hhi. lra.
Qed.
Lemma md_loop_last E xi last : forall ds ps pv s, length ds = length ps -> evaluate_to ps E pv -> (forall j, (j < length ds)%nat -> s + cumulative (S j) pv <= xi) ->
  forall q, @md_loop R NumR ds ps E xi s last q = last q.
Proof.
  induction ds as [|a ds IH]; intros ps pv s L Ev Hlo q; [reflexivity|]. destruct ps as [|p ps]; [discriminate|]. inversion Ev as [|? v ? pv' Hv Ev']; subst.
  cbn [md_loop]. unfold rbind at 1, rlift at 1. rewrite Hv. cbn [bind]. change (@nltb R NumR) with Rltb. change (@nadd R NumR s v) with (s + v).
  specialize (Hlo 0%nat ltac:(cbn; lia)) as H0. cbn [cumulative] in H0. replace (Rltb xi (s + v)) with false by (symmetry; apply Rltb_false; destruct pv'; cbn [cumulative] in H0; lra).
  apply IH with (pv := pv'); [cbn in L; lia|exact Ev'|]. intros j Hj. specialize (Hlo (S j) ltac:(cbn; lia)). change (cumulative (S (S j)) (v :: pv')) with (v + cumulative (S j) pv') in Hlo. lra.
Qed.
Lemma all_some_spec {A} (l : list (option A)) r : all_some l = Some r <-> l = map Some r.
Proof.
  revert r. induction l as [|o l IH]; intros r; cbn [all_some].
  - split; [intros H; injection H as <-; reflexivity|destruct r; [reflexivity|discriminate]].
  - destruct o as [a|]; [|split; [discriminate|destruct r; discriminate]]. destruct (all_some l) as [t|].
    + split; [intros H; injection H as <-; cbn; f_equal; apply IH; reflexivity|]. destruct r as [|b r]; cbn; [discriminate|]. intros H. injection H as -> H. apply IH in H. injection H as ->. reflexivity.
    + split; [discriminate|]. destruct r as [|b r]; cbn; [discriminate|]. intros H. injection H as -> H. apply IH in H. discriminate.
Qed.
Lemma make_multi_spec (ds : list (option (aelaw R))) ps m : make_multi ds ps = Ok m <-> exists d p, ds = map Some d /\ ps = map Some p /\ length d = length p /\ (2 <= length d)%nat /\ m = mkMD d p.
Proof.
  unfold make_multi. destruct (Nat.eqb_spec (length ds) (length ps)) as [L|L]; cbn [guard bind].
  2: { split; [discriminate|]. intros (d & p & -> & -> & H & _). rewrite !map_length in L. contradiction. }
  destruct (Nat.leb_spec (length ds) 1) as [L1|L1]; cbn [negb guard bind].
  { split; [discriminate|]. intros (d & p & -> & -> & H & H2 & _). rewrite map_length in L1. lia. }
  destruct (all_some ds) as [d|] eqn:E1.
  - apply all_some_spec in E1. destruct (all_some ps) as [p|] eqn:E2.
    + apply all_some_spec in E2. subst. rewrite !map_length in *. split; [intros H; apply Ok_eq in H; exists d, p; repeat split; try assumption; try lia; symmetry; exact H|].
      intros (d' & p' & H1 & H2 & _ & _ & ->). f_equal. assert (I : forall A (x y : list A), map Some x = map Some y -> x = y). { clear. intros A. induction x as [|a x IH]; destruct y as [|b y]; cbn; try discriminate; [reflexivity|]. intros H. injection H as -> H. f_equal. apply IH, H. }
      apply I in H1, H2. subst. reflexivity.
    + split; [discriminate|]. intros (d' & p' & _ & -> & _). exfalso. assert (all_some (map Some p') = Some p') by (apply all_some_spec; reflexivity). congruence.
  - split; [discriminate|]. intros (d' & p' & -> & _). exfalso. assert (all_some (map Some d') = Some d') by (apply all_some_spec; reflexivity). congruence.
Qed.
Lemma make_multi_throw (ds : list (option (aelaw R))) ps : (length ds <> length ps \/ (length ds < 2)%nat \/ In None ds \/ In None ps) -> make_multi ds ps = Throw.
Proof.
  intros H. assert (X : (exists m, make_multi ds ps = Ok m) \/ make_multi ds ps = Throw).
  { unfold make_multi. destruct (Nat.eqb _ _); cbn [guard bind]; [|right; reflexivity]. destruct (negb _); cbn [guard bind]; [|right; reflexivity]. destruct (all_some ds); [|right; reflexivity]. destruct (all_some ps); [left; eauto|right; reflexivity]. }
  destruct X as [(m & E)|E]; [|exact E]. exfalso. apply make_multi_spec in E as (d & p & -> & -> & L & L2 & _). rewrite !map_length in H.
  destruct H as [H|[H|[H|H]]]; [contradiction|lia|apply in_map_iff in H as (? & ? & _); discriminate|apply in_map_iff in H as (? & ? & _); discriminate].
Qed.
Lemma md_sum_some (f : aelaw R -> res (option R)) E : forall ds ps pv vs acc, Forall2 (fun d v => f d = Ok (Some v)) ds vs -> evaluate_to ps E pv -> length ds = length ps ->
  @md_sum R NumR f ds ps E acc = Ok (Some (acc + weighted pv vs)).
Proof.
  induction ds as [|d ds IH]; intros ps pv vs acc Fv Ev L.
  - destruct ps; [|discriminate]. inversion Fv; inversion Ev; subst. cbn. rewrite Rplus_0_r. reflexivity.
  - destruct ps as [|p ps]; [discriminate|]. inversion Fv as [|? v ? vs' Hv Fv']; subst. inversion Ev as [|? w ? pv' Hw Ev']; subst. cbn [md_sum]. rewrite Hv. cbn [bind]. rewrite Hw. cbn [bind].
    rewrite (IH ps pv' vs' _ Fv' Ev') by (cbn in L; lia). cbn [weighted]. do 2 f_equal. change (@nadd R NumR) with Rplus. change (@nmul R NumR) with Rmult. ring.
Qed.
Lemma md_sum_none (f : aelaw R -> res (option R)) E : forall ds ps pv acc, Forall (fun d => exists o, f d = Ok o) ds -> Exists (fun d => f d = Ok None) ds -> evaluate_to ps E pv -> length ds = length ps ->
  @md_sum R NumR f ds ps E acc = Ok None.
Proof.
  induction ds as [|d ds IH]; intros ps pv acc Fa Ex Ev L; [inversion Ex|]. destruct ps as [|p ps]; [discriminate|]. inversion Ev as [|? w ? pv' Hw Ev']; subst. inversion Fa as [|? ? (o & Ho) Fa']; subst.
  cbn [md_sum]. rewrite Ho. cbn [bind]. destruct o as [v|]; [|reflexivity]. rewrite Hw. cbn [bind]. apply (IH ps pv'); [exact Fa'| |exact Ev'|cbn in L; lia].
  inversion Ex as [? ? H|]; subst; [congruence|assumption].
Qed.

(** ** summed fission *)
Lemma sf_xs_spec r E i x : @sf_xs R NumR r E i = Ok x <-> contributes r E i x.
Proof.
  unfold sf_xs, contributes. change (@nltb R NumR) with Rltb. change (@nofZ R NumR 0) with 0. destruct (Rltb_spec (fr_threshold r) E).
  - split; [left; split; assumption|]. intros [[_ H']|[H' _]]; [exact H'|lra].
  - split; [intros EE; apply Ok_eq in EE; right; split; [assumption|symmetry; exact EE]|]. intros [[H' _]|[_ ->]]; [lra|reflexivity].
Qed.
Lemma sf_probs_eq d E i x0 x1 x2 x3 : get_lower_index (x_grid (fr_xs (sf0 d))) E = Ok i -> contributes (sf0 d) E i x0 -> contributes (sf1 d) E i x1 -> contributes (sf2 d) E i x2 -> contributes (sf3 d) E i x3 ->
  sf_probs d E = Ok (x0 / (x0 + x1 + x2 + x3), x1 / (x0 + x1 + x2 + x3), x2 / (x0 + x1 + x2 + x3), x3 / (x0 + x1 + x2 + x3)).
Proof.
  intros Hi H0 H1 H2 H3. apply sf_xs_spec in H0, H1, H2, H3. unfold sf_probs. rewrite Hi. cbn [bind]. rewrite H0. cbn [bind]. rewrite H1. cbn [bind]. rewrite H2. cbn [bind]. rewrite H3. cbn [bind]. reflexivity.
Qed.
Section SumFis.
  Variables (d : sumfis R) (E : R) (i : Z) (x0 x1 x2 x3 : R).
  Hypotheses (Hi : get_lower_index (x_grid (fr_xs (sf0 d))) E = Ok i) (H0 : contributes (sf0 d) E i x0) (H1 : contributes (sf1 d) E i x1) (H2 : contributes (sf2 d) E i x2) (H3 : contributes (sf3 d) E i x3).
  Hypotheses (N0 : 0 <= x0) (N1 : 0 <= x1) (N2 : 0 <= x2) (N3 : 0 <= x3) (Pos : 0 < x0 + x1 + x2 + x3).
  Let t := x0 + x1 + x2 + x3.
  Lemma lt_div x y : x < y / t <-> x * t < y.
  Proof. assert (P : 0 < t) by exact Pos. clear - P. split; intros H; [apply (Rmult_lt_compat_r t) in H; [|exact P]; replace (y / t * t) with y in H by (field; lra); exact H|apply (Rmult_lt_reg_r t); [exact P|]; replace (y / t * t) with y by (field; lra); exact H]. Qed.
  Lemma sf_sample_eq xi ds : sf_sample d E (xi :: ds) =
    (if Rlt_dec (xi * t) x0 then ae_sample (fr_dist (sf0 d)) E ds else if Rlt_dec (xi * t) (x0 + x1) then ae_sample (fr_dist (sf1 d)) E ds
     else if Rlt_dec (xi * t) (x0 + x1 + x2) then ae_sample (fr_dist (sf2 d)) E ds else ae_sample (fr_dist (sf3 d)) E ds).
  Proof.
    unfold sf_sample. unfold rbind at 1, rlift at 1. rewrite (sf_probs_eq d E i x0 x1 x2 x3 Hi H0 H1 H2 H3). cbn [bind]. unfold rbind at 1, draw at 1.
    change (@nltb R NumR) with Rltb. change (@nadd R NumR) with Rplus. fold t.
    assert (P : 0 < t) by exact Pos.
    replace (x0 / t + x1 / t) with ((x0 + x1) / t) by (field; lra). replace ((x0 + x1) / t + x2 / t) with ((x0 + x1 + x2) / t) by (field; lra).
    assert (Q : forall y, Rltb xi (y / t) = if Rlt_dec (xi * t) y then true else false).
    { intros y. destruct (Rlt_dec (xi * t) y) as [L|L]; [apply Rltb_true, lt_div, L|apply Rltb_false]. destruct (Rlt_le_dec xi (y / t)) as [G|G]; [apply lt_div in G; contradiction|exact G]. }
    rewrite !Q. destruct (Rlt_dec (xi * t) x0); [reflexivity|]. destruct (Rlt_dec (xi * t) (x0 + x1)); [reflexivity|]. destruct (Rlt_dec (xi * t) (x0 + x1 + x2)); reflexivity.
  Qed.
  (** the density is that of the first contributing reaction only *)
  Lemma pos_div x : Rltb 0 (x / t) = if Rlt_dec 0 x then true else false.
  Proof.
    destruct (Rlt_dec 0 x) as [L|L]; [apply Rltb_true, lt_div; clear - L; lra|apply Rltb_false]. destruct (Rlt_le_dec 0 (x / t)) as [G|G]; [apply lt_div in G; exfalso; clear - L G; lra|exact G].
  Qed.
  Lemma sf_chain_eq f : @sf_chain R NumR f d E =
    let term x r := let! o := f (fr_dist r) in match o with Some v => Ok (Some (x / t * v)) | None => Ok None end in
    if Rlt_dec 0 x0 then term x0 (sf0 d) else if Rlt_dec 0 x1 then term x1 (sf1 d) else if Rlt_dec 0 x2 then term x2 (sf2 d) else term x3 (sf3 d).
  Proof.
    unfold sf_chain. rewrite (sf_probs_eq d E i x0 x1 x2 x3 Hi H0 H1 H2 H3). cbn [bind]. fold t. change (@nltb R NumR) with Rltb. change (@nofZ R NumR 0) with 0. rewrite !pos_div.
    assert (Tm : forall p r, (let! o := f (fr_dist r) in match o with Some v => Ok (Some (0 + p * v)) | None => Ok None end) = (let! o := f (fr_dist r) in match o with Some v => Ok (Some (p * v)) | None => Ok None end)).
    { intros p r. destruct (f (fr_dist r)) as [[v|]| | |]; try reflexivity. cbn [bind]. rewrite Rplus_0_l. reflexivity. }
    change (@nadd R NumR) with Rplus. change (@nmul R NumR) with Rmult.
    destruct (Rlt_dec 0 x0); [apply Tm|]. destruct (Rlt_dec 0 x1); [apply Tm|]. destruct (Rlt_dec 0 x2); [apply Tm|]. destruct (Rlt_dec 0 x3) as [|Q]; [apply Tm|]. exfalso. clear - N0 N1 N2 N3 Pos n n0 n1 Q. lra.
  Qed.
End SumFis.
