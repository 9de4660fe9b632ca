(** * PCTable over the reals: density, integral, inverse CDF *)
From Coquelicot Require Import Coquelicot.
From Verif Require Import Base NumR L_Search L_SearchR M_Interp L_Interp2 M_PC S_PC L_PC L_Xs.
From Coq Require Import ZifyBool ZifyNat.
Local Open Scope R_scope.

Lemma increasing_step v : (forall k, (0 <= k)%Z -> (k + 1 < sizeZ v)%Z -> getR v k <= getR v (k + 1)) -> increasing v.
Proof.
  intros H i j Hi Hij Hj. replace j with (i + Z.of_nat (Z.to_nat (j - i)))%Z in * by lia.
  set (n := Z.to_nat (j - i)) in *. clearbody n. clear j Hij. induction n as [|n IH].
  - rewrite Z.add_0_r. lra.
  - specialize (IH ltac:(lia)). specialize (H (i + Z.of_nat n)%Z ltac:(lia) ltac:(lia)).
    replace (i + Z.of_nat (S n))%Z with (i + Z.of_nat n + 1)%Z by lia. lra.
Qed.
Lemma getR_nn l i : (forall p, In p l -> 0 <= p) -> 0 <= getR l i.
Proof. apply getR_nonneg. Qed.

Lemma Chasles_R (f : R -> R) a b c l1 l2 l : is_RInt f a b l1 -> is_RInt f b c l2 -> l = l1 + l2 -> is_RInt f a c l.
Proof. intros H1 H2 ->. exact (is_RInt_Chasles f a b c l1 l2 H1 H2). Qed.
Lemma swap_R (f : R -> R) a b l : is_RInt f a b l -> is_RInt f b a (- l).
Proof. intros H. exact (is_RInt_swap f b a l H). Qed.

Section Table.
  Variables values pdf cdf : list R.
  Variable i : interpolation.
  Hypothesis V : valid_table values pdf cdf i.
  Let n := sizeZ values.
  Let v := getR values.
  Let p := getR pdf.
  Let c := getR cdf.
  Let Hpn : sizeZ pdf = n. Proof. unfold n, sizeZ. rewrite (vt_pdf_size _ _ _ _ V). reflexivity. Qed.
  Let Hcn : sizeZ cdf = n. Proof. unfold n, sizeZ. rewrite (vt_cdf_size _ _ _ _ V). reflexivity. Qed.
  Let Hn : (1 <= n)%Z. Proof. exact (vt_nonempty _ _ _ _ V). Qed.
  Let Hv : increasing values. Proof. exact (vt_values _ _ _ _ V). Qed.
  Let Hp k : 0 <= p k. Proof. apply getR_nn, V. Qed.
  Lemma area_nonneg k : (0 <= k)%Z -> (k + 1 < n)%Z -> 0 <= seg_area i (v k) (p k) (v (k + 1)) (p (k + 1)).
  Proof.
    intros H1 H2. assert (v k <= v (k + 1)) by (apply Hv; unfold n in *; lia). pose proof (Hp k). pose proof (Hp (k + 1)).
    unfold seg_area. destruct (vt_interp _ _ _ _ V) as [-> | ->]; apply Rmult_le_pos; lra.
  Qed.
  Lemma cdf_increasing : increasing cdf.
  Proof.
    apply increasing_step. intros k H1 H2. rewrite Hcn in H2.
    pose proof (area_nonneg k H1 H2). rewrite <- (vt_area _ _ _ _ V) in H by (unfold n in *; lia). lra.
  Qed.
  Definition tbl : pctable R := mkPC values pdf cdf i.
  Lemma valid_accepted : make_pc values pdf cdf i = Ok tbl.
  Proof.
    unfold make_pc. replace (table_interp i) with true by (destruct (vt_interp _ _ _ _ V) as [-> | ->]; reflexivity). cbn [guard bind].
    rewrite (vt_pdf_size _ _ _ _ V), (vt_cdf_size _ _ _ _ V), !Nat.eqb_refl. cbn [andb guard bind].
    replace (Nat.eqb (length values) 0) with false by (symmetry; apply Nat.eqb_neq; unfold n, sizeZ in Hn; lia). cbn [negb guard bind].
    rewrite (proj2 (is_sorted_increasing values) Hv), (proj2 (is_sorted_increasing cdf) cdf_increasing). cbn [guard bind].
    unfold fix_last. rewrite atR by (rewrite Hcn; lia). cbn [bind]. rewrite (vt_last _ _ _ _ V).
    change (@neqb R NumR 1 (nofZ 1)) with (Reqb 1 1). replace (Reqb 1 1) with true by (symmetry; apply Reqb_true; reflexivity). cbn [negb bind].
    change (existsb (fun p => nltb p (nofZ 0)) pdf) with (@M_Grid.any_negative R NumR pdf).
    replace (M_Grid.any_negative pdf) with false by (symmetry; apply any_negative_R; exact (vt_nonneg _ _ _ _ V)). reflexivity.
  Qed.

  Definition dens (x : R) : R := match pc_pdf tbl x with Ok d => d | _ => 0 end.
  Lemma dens_ok x : pc_pdf tbl x = Ok (dens x).
  Proof. destruct (pdf_safe (fun _ : R => True) NumR_order values pdf cdf i tbl x valid_accepted (ForallTrue _) I) as [d E]. unfold dens. rewrite E. reflexivity. Qed.
  (** the density curve on segment k *)
  Definition seg (k : Z) (x : R) : R := interpolate i x (v k) (p k) (v (k + 1)) (p (k + 1)).
  Lemma dens_outside x : x < v 0 \/ v (n - 1) < x -> dens x = 0.
  Proof.
    intros H. unfold dens, pc_pdf, pc_min, pc_max. cbn [pc_values tbl]. rewrite frontR_R, backR_R by (fold n; lia). cbn [bind].
    change (@nltb R NumR) with Rltb. fold v n. destruct (Rltb_spec x (v 0)); [reflexivity|].
    destruct (Rltb_spec (v (n - 1)%Z) x); [reflexivity|]. lra.
  Qed.
  Lemma dens_open k x : (0 <= k)%Z -> (k + 1 < n)%Z -> v k < x < v (k + 1) -> dens x = seg k x.
  Proof.
    intros H1 H2 H3. assert (v 0 <= v k) by (apply Hv; fold n; lia). assert (v (k + 1) <= v (n - 1)) by (apply Hv; fold n; lia).
    unfold dens, pc_pdf, pc_min, pc_max. cbn [pc_values pc_pdfs pc_interp tbl]. rewrite frontR_R, backR_R by (fold n; lia). cbn [bind].
    change (@nltb R NumR) with Rltb. fold v n. destruct (Rltb_spec x (v 0)); [lra|].
    destruct (Rltb_spec (v (n - 1)%Z) x); [lra|].
    rewrite (lower_boundR_eq values x (k + 1) Hv).
    - cbn [bind]. rewrite atR by (fold n; lia). cbn [bind]. fold v. change (@neqb R NumR) with Reqb.
      destruct (Reqb_spec x (v (k + 1))); [lra|]. replace (k + 1 - 1)%Z with k by lia.
      rewrite (atR pdf) by lia. fold p. unfold seg. destruct (vt_interp _ _ _ _ V) as [-> | ->]; cbn [interpolate bind].
      + reflexivity.
      + rewrite !atR by (fold n; lia). cbn [bind]. reflexivity.
    - split; [fold n; lia|]. fold v. split; intros j Hj.
      + assert (v j <= v k) by (apply Hv; fold n; lia). lra.
      + assert (v (k + 1) <= v j) by (apply Hv; fold n in Hj |- *; lia). lra.
  Qed.
  Lemma dens_nonneg x : 0 <= dens x.
  Proof.
    unfold dens, pc_pdf, pc_min, pc_max. cbn [pc_values pc_pdfs pc_interp tbl]. rewrite frontR_R, backR_R by (fold n; lia). cbn [bind].
    change (@nltb R NumR) with Rltb. fold v n. destruct (Rltb_spec x (v 0)) as [C1|C1]; [change (@nofZ R NumR 0) with 0; lra|].
    destruct (Rltb_spec (v (n - 1)%Z) x) as [C2|C2]; [change (@nofZ R NumR 0) with 0; lra|].
    destruct (lower_boundR values x Hv) as (k & Ek & L0 & L1 & L2). rewrite Ek. cbn [bind].
    destruct (atZ values k) as [vk| | |] eqn:E; cbn [bind]; try lra. apply atR_inv in E as [Hk ->]. fold v.
    change (@neqb R NumR) with Reqb. destruct (Reqb_spec x (v k)).
    { rewrite atR by (fold n in Hk; lia). apply Hp. }
    destruct (Z.eq_dec k 0) as [->|Hk0]. { specialize (L2 0%Z ltac:(lia)). fold v in L2. lra. }
    fold n in Hk. specialize (L1 (k - 1)%Z ltac:(lia)). specialize (L2 k ltac:(fold n; lia)). fold v in L1, L2.
    replace (k - 1 + 1)%Z with k by lia. rewrite !atR by (fold n; lia). fold v p. cbn [bind].
    destruct (vt_interp _ _ _ _ V) as [-> | ->]; [apply Hp|].
    unfold linlin_interpolate. rnum. pose proof (Hp (k - 1)). pose proof (Hp k).
    set (s := (x - v (k - 1)%Z) / (v k - v (k - 1)%Z)).
    assert (0 <= s <= 1).
    { unfold s. split; [apply Rmult_le_pos; [lra|left; apply Rinv_0_lt_compat; lra]|].
      apply Rmult_le_reg_r with (v k - v (k - 1)%Z); [lra|]. replace ((x - v (k - 1)%Z) / (v k - v (k - 1)%Z) * (v k - v (k - 1)%Z)) with (x - v (k - 1)%Z) by (field; lra). lra. }
    nra.
  Qed.

  (** integral over part of a segment *)
  Lemma seg_integral k x y : (0 <= k)%Z -> (k + 1 < n)%Z -> v k < v (k + 1) -> v k <= x <= v (k + 1) -> v k <= y <= v (k + 1) ->
    is_RInt dens x y (integrate i x y (v k) (p k) (v (k + 1)) (p (k + 1))).
  Proof.
    intros H1 H2 H3 Hx Hy. apply is_RInt_ext with (seg k).
    - intros z Hz. symmetry. apply dens_open; [assumption|assumption|]. revert Hz. unfold Rmin, Rmax. destruct (Rle_dec x y); lra.
    - unfold seg. destruct (vt_interp _ _ _ _ V) as [-> | ->]; [apply histogram_integral|apply linlin_integral; lra].
  Qed.
  Lemma seg_integral_area k : (0 <= k)%Z -> (k + 1 < n)%Z -> is_RInt dens (v k) (v (k + 1)) (c (k + 1) - c k).
  Proof.
    intros H1 H2. unfold c. rewrite (vt_area _ _ _ _ V) by (fold n; lia). fold v p.
    assert (L : v k <= v (k + 1)) by (apply Hv; fold n; lia). destruct (Req_dec (v k) (v (k + 1))) as [E|E].
    - rewrite E. replace (seg_area _ _ _ _ _) with 0 by (unfold seg_area; destruct i; ring). exact (@is_RInt_point R_NormedModule dens (v (k + 1)%Z)).
    - replace (seg_area i (v k) (p k) (v (k + 1)) (p (k + 1))) with (integrate i (v k) (v (k + 1)) (v k) (p k) (v (k + 1)) (p (k + 1))).
      + apply seg_integral; try assumption; lra.
      + unfold seg_area. destruct (vt_interp _ _ _ _ V) as [-> | ->]; cbn [integrate]; unfold histogram_integrate, linlin_integrate; rnum; field; lra.
  Qed.
  Lemma integral_from_0 k : (0 <= k < n)%Z -> is_RInt dens (v 0) (v k) (c k).
  Proof.
    intros Hk. replace k with (Z.of_nat (Z.to_nat k)) in * by lia. set (m := Z.to_nat k) in *. clearbody m. clear k.
    induction m as [|m IH].
    - change (Z.of_nat 0) with 0%Z. unfold c. rewrite (vt_first _ _ _ _ V). exact (@is_RInt_point R_NormedModule dens (v 0%Z)).
    - specialize (IH ltac:(lia)). replace (Z.of_nat (S m)) with (Z.of_nat m + 1)%Z in * by lia.
      eapply Chasles_R; [exact IH|apply seg_integral_area; lia|ring].
  Qed.
  Lemma integral_between j k : (0 <= j < n)%Z -> (0 <= k < n)%Z -> is_RInt dens (v j) (v k) (c k - c j).
  Proof.
    intros Hj Hk. eapply Chasles_R; [apply swap_R, integral_from_0; eassumption|apply integral_from_0; assumption|ring].
  Qed.

  (** inverse cdf on segment k *)
  Definition segf (t : pctable R) (k : Z) (xi : R) : res R :=
    match pc_interp t with
    | Histogram => pc_histogram t xi k
    | _ => let! p1 := atZ (pc_pdfs t) k in let! p2 := atZ (pc_pdfs t) (k + 1)%Z in if Reqb p1 p2 then pc_histogram t xi k else pc_linear t xi k
    end.
  Lemma seg_sample k xi : (0 <= k)%Z -> (k + 1 < n)%Z -> c k < xi <= c (k + 1) ->
    exists x, segf tbl k xi = Ok x /\ is_RInt dens (v 0) x xi /\ v k <= x <= v (k + 1).
  Proof.
    intros K1 K2 Hc.
    assert (A : c (k + 1) - c k = seg_area i (v k) (p k) (v (k + 1)) (p (k + 1))) by (apply (vt_area _ _ _ _ V); [|fold n]; lia).
    assert (Lv : v k < v (k + 1)).
    { assert (v k <= v (k + 1)) by (apply Hv; [|lia|fold n]; lia). destruct (Req_dec (v k) (v (k + 1))) as [E|]; [|lra].
      exfalso. assert (seg_area i (v k) (p k) (v (k + 1)) (p (k + 1)) = 0) by (rewrite E; unfold seg_area; destruct i; ring). lra. }
    set (d := xi - c k). assert (Hd : 0 < d <= seg_area i (v k) (p k) (v (k + 1)) (p (k + 1))) by (unfold d; lra).
    assert (Main : forall x, v k <= x <= v (k + 1) -> integrate i (v k) x (v k) (p k) (v (k + 1)) (p (k + 1)) = d ->
      exists x0, Ok x = Ok x0 /\ is_RInt dens (v 0) x0 xi /\ v k <= x0 <= v (k + 1)).
    { intros x Hx Hi. exists x. split; [reflexivity|]. split; [|exact Hx].
      eapply Chasles_R; [apply (integral_from_0 k); lia|apply (seg_integral k (v k) x); try assumption; lra|rewrite Hi; unfold d; ring]. }
    pose proof (Hp k) as P1. pose proof (Hp (k + 1)) as P2.
    assert (Hhist : i = Histogram \/ p k = p (k + 1) -> 0 < p k /\ v k <= v k + d / p k <= v (k + 1) /\
       integrate i (v k) (v k + d / p k) (v k) (p k) (v (k + 1)) (p (k + 1)) = d).
    { intros Hh. assert (Ea : seg_area i (v k) (p k) (v (k + 1)) (p (k + 1)) = p k * (v (k + 1) - v k)).
      { unfold seg_area. destruct Hh as [->|<-]; [reflexivity|]. destruct i; lra. }
      rewrite Ea in Hd. assert (0 < p k) by nra. split; [assumption|]. split.
      - assert (0 < d / p k) by (apply Rdiv_lt_0_compat; lra). split; [lra|].
        apply Rmult_le_reg_r with (p k); [lra|]. replace ((v k + d / p k) * p k) with (v k * p k + d) by (field; lra). lra.
      - destruct (vt_interp _ _ _ _ V) as [-> | ->]; cbn [integrate]; unfold histogram_integrate, linlin_integrate; rnum; [field; lra|].
        destruct Hh as [|<-]; [discriminate|]. field. lra. }
    unfold segf. cbn [pc_interp pc_pdfs tbl]. destruct (vt_interp _ _ _ _ V) as [Ei|Ei]; rewrite Ei.
    + unfold pc_histogram. cbn [pc_values pc_pdfs pc_cdf tbl]. rewrite !atR by (fold n; lia). cbn [bind]. fold v p c. change (@nadd R NumR) with Rplus. change (@nsub R NumR) with Rminus. change (@ndiv R NumR) with Rdiv. fold d.
      destruct (Hhist (or_introl Ei)) as (B1 & B2 & B3). apply Main; assumption.
    + rewrite !(atR pdf) by lia. cbn [bind]. fold p. change (@neqb R NumR) with Reqb. destruct (Reqb_spec (p k) (p (k + 1))) as [Qp|Qp].
      * unfold pc_histogram. cbn [pc_values pc_pdfs pc_cdf tbl]. rewrite !atR by (fold n; lia). cbn [bind]. fold v p c. change (@nadd R NumR) with Rplus. change (@nsub R NumR) with Rminus. change (@ndiv R NumR) with Rdiv. fold d.
        destruct (Hhist (or_intror Qp)) as (B1 & B2 & B3). apply Main; assumption.
      * unfold pc_linear. cbn [pc_values pc_pdfs pc_cdf tbl]. rewrite !atR by (fold n; lia). cbn [bind]. fold v p c.
        unfold nmax. change (@nltb R NumR) with Rltb. change (@nadd R NumR) with Rplus. change (@nsub R NumR) with Rminus. change (@ndiv R NumR) with Rdiv. change (@nmul R NumR) with Rmult. change (@nsqrt R NumR) with sqrt. change (@nofZ R NumR) with IZR. fold d.
        rewrite Ei in Hd. cbn [seg_area] in Hd.
        set (x1 := v k) in *. set (x2 := v (k + 1)%Z) in *. set (p1 := p k) in *. set (p2 := p (k + 1)%Z) in *.
        set (w := x2 - x1). assert (Hw : 0 < w) by (unfold w; lra).
        set (arg := p1 * p1 + 2 * ((p2 - p1) / w) * d).
        assert (Earg : arg = p1 * p1 + (p2 * p2 - p1 * p1) * (d / ((p1 + p2) / 2 * w))).
        { unfold arg. field. fold w in Hd. split; [|lra]. nra. }
        set (r := d / ((p1 + p2) / 2 * w)) in *.
        assert (Hr : 0 < r <= 1).
        { fold w in Hd. assert (0 < (p1 + p2) / 2 * w) by lra. unfold r. split; [apply Rdiv_lt_0_compat; lra|].
          apply Rmult_le_reg_r with ((p1 + p2) / 2 * w); [lra|]. replace (d / ((p1 + p2) / 2 * w) * ((p1 + p2) / 2 * w)) with d by (field; nra). lra. }
        assert (Harg : 0 <= arg). { rewrite Earg. assert (0 <= p1 * p1) by nra. assert (0 <= p2 * p2) by nra. nra. }
        replace (Rltb arg 0) with false by (symmetry; apply Rltb_false; lra).
        set (s := sqrt arg). assert (Hs : 0 <= s /\ s * s = arg) by (split; [apply sqrt_pos|apply sqrt_sqrt; assumption]). clearbody s. destruct Hs as [Hs0 Hs1].
        assert (Hsb : Rmin p1 p2 <= s <= Rmax p1 p2).
        { unfold Rmin, Rmax. destruct (Rle_dec p1 p2).
          - assert (p1 * p1 <= arg <= p2 * p2) by (rewrite Earg; assert (p1 * p1 <= p2 * p2) by nra; nra). split; nra.
          - assert (p2 * p2 <= arg <= p1 * p1) by (rewrite Earg; assert (p2 * p2 <= p1 * p1) by nra; nra). split; nra. }
        apply Main.
        -- fold x1 x2. replace (x1 + 1 / ((p2 - p1) / w) * (s - p1)) with (x1 + w * ((s - p1) / (p2 - p1))) by (field; lra).
           assert (Hq : 0 <= (s - p1) / (p2 - p1) <= 1).
           { revert Hsb. unfold Rmin, Rmax. destruct (Rle_dec p1 p2); intros Hsb.
             - split; [apply Rmult_le_pos; [lra|left; apply Rinv_0_lt_compat; lra]|]. apply Rmult_le_reg_r with (p2 - p1); [lra|]. replace ((s - p1) / (p2 - p1) * (p2 - p1)) with (s - p1) by (field; lra). lra.
             - replace ((s - p1) / (p2 - p1)) with ((p1 - s) / (p1 - p2)) by (field; lra).
               split; [apply Rmult_le_pos; [lra|left; apply Rinv_0_lt_compat; lra]|]. apply Rmult_le_reg_r with (p1 - p2); [lra|]. replace ((p1 - s) / (p1 - p2) * (p1 - p2)) with (p1 - s) by (field; lra). lra. }
           replace x2 with (x1 + w * 1) by (unfold w; ring). split; [|apply Rplus_le_compat_l, Rmult_le_compat_l; lra].
           assert (0 <= w * ((s - p1) / (p2 - p1))) by (apply Rmult_le_pos; lra). lra.
        -- rewrite Ei. cbn [integrate]. unfold linlin_integrate. rnum. fold x1 x2 p1 p2.
           transitivity ((s * s - p1 * p1) / (2 * ((p2 - p1) / w))).
           ++ unfold w. field. unfold w in Hw. lra.
           ++ rewrite Hs1. unfold arg. field. lra.
  Qed.
  (** inverse cdf *)
  Lemma sample_spec xi : 0 <= xi < 1 -> exists x k, pc_sample tbl xi = Ok x /\ is_RInt dens (v 0) x xi /\
    (0 <= k)%Z /\ (k + 1 < n)%Z /\ c k <= xi <= c (k + 1) /\ v k <= x <= v (k + 1).
  Proof.
    intros Hxi. destruct (lower_boundR cdf xi cdf_increasing) as (l & El & L0 & L1 & L2).
    assert (Ll : (l < n)%Z).
    { destruct (Z_lt_dec l n); [assumption|]. specialize (L1 (sizeZ cdf - 1)%Z ltac:(rewrite Hcn in *; lia)). rewrite (vt_last _ _ _ _ V) in L1. lra. }
    assert (N2 : (1 < n)%Z).
    { destruct (Z_lt_dec 1 n); [assumption|]. assert (n = 1%Z) by lia. pose proof (vt_last _ _ _ _ V) as A. pose proof (vt_first _ _ _ _ V) as B. rewrite Hcn, H in A. change (1 - 1)%Z with 0%Z in A. rewrite A in B. lra. }
    unfold pc_sample. cbn [pc_values pc_pdfs pc_cdf pc_interp tbl]. rewrite El. cbn [bind]. rewrite atR by lia. cbn [bind]. fold c.
    change (@neqb R NumR) with Reqb. destruct (Reqb_spec xi (c l)) as [Q|Q].
    - exists (v l), (if (l =? 0)%Z then 0 else l - 1)%Z. rewrite atR by (fold n; lia). split; [reflexivity|]. rewrite Q.
      split; [apply integral_from_0; lia|].
      destruct (l =? 0)%Z eqn:E0.
      + assert (l = 0)%Z as -> by lia. repeat (split; [lia|]). change (0 + 1)%Z with 1%Z. split; (split; [lra|]); [apply cdf_increasing|apply Hv; fold n]; lia.
      + replace (l - 1 + 1)%Z with l by lia. repeat (split; [lia|]). split; (split; [|lra]); [apply cdf_increasing|apply Hv; fold n]; lia.
    - assert (xi < c l) by (specialize (L2 l ltac:(lia)); fold c in L2; lra).
      assert (l <> 0)%Z. { intros ->. unfold c in H. rewrite (vt_first _ _ _ _ V) in H. lra. }
      assert (c (l - 1) < xi) by (apply L1; lia).
      assert (exists k, l = (k + 1)%Z) as [k ->] by (exists (l - 1)%Z; lia). replace (k + 1 - 1)%Z with k in * by lia. clear Q L1 L2 El.
      destruct (seg_sample k xi) as (x & Es & Ix & Bx); [lia|lia|lra|].
      exists x, k. split; [|split; [exact Ix|split; [lia|split; [lia|split; [lra|exact Bx]]]]].
      rewrite <- Es. unfold segf. cbn [pc_interp pc_pdfs tbl]. reflexivity.
  Qed.

  Lemma sample_monotone a b x y : 0 <= a -> a <= b -> b < 1 -> pc_sample tbl a = Ok x -> pc_sample tbl b = Ok y -> x <= y.
  Proof.
    intros Ha Hab Hb Ex Ey. destruct (sample_spec a ltac:(lra)) as (x' & _ & Ex' & Ix & _). destruct (sample_spec b ltac:(lra)) as (y' & _ & Ey' & Iy & _).
    rewrite Ex in Ex'. injection Ex' as <-. rewrite Ey in Ey'. injection Ey' as <-.
    destruct (Rle_lt_dec x y) as [L|L]; [exact L|exfalso].
    assert (I : is_RInt dens y x (- b + a)) by (eapply Chasles_R; [apply swap_R; exact Iy|exact Ix|reflexivity]).
    assert (0 <= - b + a).
    { rewrite <- (is_RInt_unique _ _ _ _ I). apply RInt_ge_0; [lra|exists (- b + a); exact I|]. intros z _. apply dens_nonneg. }
    assert (a = b) by lra. subst b. rewrite Ex in Ey. injection Ey as <-. lra.
  Qed.
End Table.
