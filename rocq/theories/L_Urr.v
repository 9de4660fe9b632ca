(** * Probability tables in the unresolved range (exact arithmetic) *)
From Verif Require Import Base NumR L_Search L_SearchR M_Interp M_Tab1D M_Func M_Grid M_Packet M_PC M_Spectra M_Ace M_Neutron S_Grid S_Neutron L_PC L_Grid L_Xs L_Neutron L_Ace L_Neutron2.
From Coq Require Import ZifyBool ZifyNat.
Local Open Scope R_scope.

(** ** std::lower_bound on an arbitrary (not necessarily sorted) vector *)
Lemma lower_bound_any_loop (v : list R) x : forall fuel first len, (Z.of_nat fuel > len)%Z -> (0 <= first)%Z -> (0 <= len)%Z -> (first + len <= sizeZ v)%Z ->
  ((0 < first)%Z -> getR v (first - 1) < x) -> ((first + len < sizeZ v)%Z -> x <= getR v (first + len)) ->
  exists k, @lower_bound_loop R NumR fuel v first len x = Ok k /\ (0 <= k <= sizeZ v)%Z /\ ((0 < k)%Z -> getR v (k - 1) < x) /\ ((k < sizeZ v)%Z -> x <= getR v k).
Proof.
  induction fuel as [|f IH]; intros first len Hf H0 Hl Hs Ha Hb; cbn [lower_bound_loop].
  - lia.
  - destruct (len <=? 0)%Z eqn:E.
    + exists first. split; [reflexivity|]. assert (len = 0)%Z by lia. subst len. rewrite Z.add_0_r in *. split; [lia|]. auto.
    + assert (0 <= len / 2 < len)%Z by (split; [apply Z.div_pos; lia|apply Z.div_lt; lia]). set (h := (len / 2)%Z) in *.
      rewrite atR by lia. cbn [bind]. change (@nltb R NumR) with Rltb. destruct (Rltb_spec (getR v (first + h)) x) as [L|L].
      * apply IH; try lia.
        { intros _. replace (first + h + 1 - 1)%Z with (first + h)%Z by lia. exact L. }
        { replace (first + h + 1 + (len - h - 1))%Z with (first + len)%Z by lia. exact Hb. }
      * apply IH; try lia; auto.
Qed.
Lemma lower_bound_any (v : list R) x : exists k, @lower_bound R NumR v x = Ok k /\ (0 <= k <= sizeZ v)%Z /\ ((0 < k)%Z -> getR v (k - 1) < x) /\ ((k < sizeZ v)%Z -> x <= getR v k).
Proof. unfold lower_bound. apply lower_bound_any_loop; unfold sizeZ; try lia. Qed.

(** ** what the constructor guarantees about its tables *)
Lemma zseq_size i n : (0 <= n)%Z -> sizeZ (zseq i (Z.to_nat n)) = n.
Proof. intros. unfold zseq, sizeZ. rewrite map_length, seq_length. lia. Qed.
Lemma mapR_size {A B} (f : A -> res B) l r : mapR f l = Ok r -> sizeZ r = sizeZ l.
Proof. intros H. unfold sizeZ. rewrite (proj1 (mapR_ok f l r H)). reflexivity. Qed.
Lemma column_size a i n c : (0 <= n)%Z -> @column R a i n = Ok c -> sizeZ c = n.
Proof. intros Hn H. apply mapR_size in H. rewrite H, zseq_size; auto. Qed.
Lemma column_nonneg_ok a i n c : (0 <= n)%Z -> @column_nonneg R NumR a i n = Ok c -> sizeZ c = n /\ nonneg c.
Proof.
  intros Hn H. pose proof (mapR_size _ _ _ H) as S. rewrite zseq_size in S by exact Hn. split; [exact S|].
  destruct (mapR_ok _ _ _ H) as [L K]. intros v Hv. apply In_nth_error in Hv as (k & Hk).
  assert (exists j, nth_error (zseq i (Z.to_nat n)) k = Some j) as (j & Hj).
  { destruct (nth_error (zseq i (Z.to_nat n)) k) eqn:E; [eauto|]. apply nth_error_None in E. assert (nth_error c k <> None) by congruence. apply nth_error_Some in H0. lia. }
  destruct (K _ _ Hj) as (b & B1 & B2). rewrite Hk in B1. injection B1 as <-. apply bind_ok in B2 as (w & _ & B2). change (@nltb R NumR) with Rltb in B2.
  change (@nofZ R NumR 0) with 0 in B2. destruct (Rltb_spec w 0) as [D|D]; [discriminate|]. injection B2 as ->. exact D.
Qed.
Definition band_ok (b : band R) : Prop := 0 <= b_total b /\ 0 <= b_elastic b /\ 0 <= b_fission b /\ 0 <= b_capture b.
Lemma zip_size (t : list R) : forall e f c h, length e = length t -> length f = length t -> length c = length t -> length h = length t -> length (zip_bands t e f c h) = length t.
Proof. induction t as [|x t IH]; intros [|? e] [|? f] [|? c] [|? h]; cbn; intros; try lia. rewrite IH; lia. Qed.
Lemma zip_ok (t : list R) : forall e f c h, nonneg t -> nonneg e -> nonneg f -> nonneg c -> Forall band_ok (zip_bands t e f c h).
Proof.
  induction t as [|x t IH]; intros [|x2 e] [|x3 f] [|x4 c] [|x5 h] Ht He Hf Hc; cbn; try constructor.
  - split; [apply Ht; left; reflexivity|]. split; [apply He; left; reflexivity|]. split; [apply Hf; left; reflexivity|apply Hc; left; reflexivity].
  - apply IH; intros v Hv; [apply Ht|apply He|apply Hf|apply Hc]; right; exact Hv.
Qed.
Record ptable_ok (n : Z) (p : ptable R) : Prop := {
  po_size : sizeZ (pt_cdf p) = n /\ sizeZ (pt_bands p) = n /\ (0 < n)%Z;
  po_last : getR (pt_cdf p) (n - 1) = 1;
  po_first : 0 < getR (pt_cdf p) 0;
  po_sorted : forall i j, (0 <= i <= j)%Z -> (j < n - 1)%Z -> getR (pt_cdf p) i <= getR (pt_cdf p) j;
  po_below : forall i, (0 <= i < n)%Z -> getR (pt_cdf p) i < 1 + / 1000000000000000;
  po_bands : Forall band_ok (pt_bands p) }.
Lemma read_ptable_ok a i n p : (0 <= n)%Z -> @read_ptable R NumR a i n = Ok p -> ptable_ok n p.
Proof.
  intros Hn H. unfold read_ptable in H. apply bind_ok in H as (cdf & Ec & H). apply bind_ok in H as (u1 & G & H). apply guard_ok in G. apply is_sorted_increasing in G.
  apply bind_ok in H as (c0 & E0 & H). unfold frontR in E0. apply atR_inv in E0 as [B0 ->]. change (@nleb R NumR) with Rleb in H. change (@nofZ R NumR 0) with 0 in H.
  destruct (Rleb_spec (getR cdf 0) 0) as [L0|L0]; [discriminate|]. apply bind_ok in H as (cb & Eb & H). unfold backR in Eb. apply atR_inv in Eb as [Bb ->].
  destruct (nltb _ _) eqn:Q; [|discriminate]. apply bind_ok in H as (cdf' & Es & H). apply bind_ok in H as (t & Et & H). apply bind_ok in H as (e & Ee & H).
  apply bind_ok in H as (f & Ef & H). apply bind_ok in H as (c & Ecc & H). apply bind_ok in H as (h & Eh & H). injection H as <-.
  pose proof (column_size _ _ _ _ Hn Ec) as Sc. apply column_nonneg_ok in Et as [St Nt]; [|exact Hn]. apply column_nonneg_ok in Ee as [Se Ne]; [|exact Hn].
  apply column_nonneg_ok in Ef as [Sf Nf]; [|exact Hn]. apply column_nonneg_ok in Ecc as [Scc Nc]; [|exact Hn]. apply column_size in Eh as Sh; [|exact Hn].
  destruct (setZ_ok cdf (sizeZ cdf - 1) 1 ltac:(lia)) as (w & Ew & W1 & W2 & W3). change (@nofZ R NumR 1) with 1 in Es. rewrite Es in Ew. injection Ew as <-.
  assert (GG : forall k, (0 <= k < n)%Z -> k <> (n - 1)%Z -> getR cdf' k = getR cdf k).
  { intros k K1 K2. assert (X := W3 k ltac:(lia)). rewrite !atR in X by lia. injection X as X. exact X. }
  assert (GL : getR cdf' (n - 1) = 1). { rewrite Sc in W2. rewrite atR in W2 by lia. injection W2 as W2. exact W2. }
  assert (LB : getR cdf (sizeZ cdf - 1) < 1 + / 1000000000000000).
  { change (@nltb R NumR) with Rltb in Q. apply Rltb_true in Q. change (@nabs R NumR) with Rabs in Q. change (@nsub R NumR) with Rminus in Q. change (@nofZ R NumR 1) with 1 in Q.
    unfold nlit in Q. change (@ndiv R NumR) with Rdiv in Q. change (@nofZ R NumR 1) with 1 in Q. change (@nofZ R NumR 1000000000000000) with 1000000000000000 in Q.
    apply Rabs_def2 in Q. lra. }
  split; cbn [pt_cdf pt_bands].
  - split; [lia|]. split; [|lia]. unfold sizeZ in *. rewrite zip_size; lia.
  - exact GL.
  - destruct (Z.eq_dec (n - 1) 0) as [D|D]; [rewrite D in GL; rewrite GL; lra|rewrite GG by lia; lra].
  - intros j k J K. rewrite !GG by lia. apply G; lia.
  - intros j J. destruct (Z.eq_dec j (n - 1)) as [->|D]; [rewrite GL; lra|rewrite GG by lia]. assert (getR cdf j <= getR cdf (sizeZ cdf - 1)) by (apply G; lia). lra.
  - apply zip_ok; assumption.
Qed.
Lemma read_ptables_ok k : forall a i n pts, (0 <= n)%Z -> @read_ptables R NumR k a i n = Ok pts -> length pts = k /\ Forall (ptable_ok n) pts.
Proof.
  induction k as [|k IH]; cbn [read_ptables]; intros a i n pts Hn H; [injection H as <-; auto|].
  apply bind_ok in H as (p & Ep & H). apply bind_ok in H as (r & Er & H). injection H as <-. destruct (IH _ _ _ _ Hn Er) as [L F]. cbn. split; [lia|].
  constructor; [eapply read_ptable_ok; eauto|exact F].
Qed.
Definition usable (g : egrid R) (x : xsec R) : Prop := good g x \/ zero_xs g x.
Record urr_ok (g : egrid R) (u : urr R) : Prop := {
  uo_tables : exists n, length (u_ptables u) = length (u_energy u) /\ Forall (ptable_ok n) (u_ptables u);
  uo_elastic : usable g (u_elastic u); uo_capture : usable g (u_capture u); uo_fission : usable g (u_fission u); uo_heating : xs_on g (u_heating u);
  uo_inel : forall x, u_inelastic u = Some x -> usable g x;
  uo_abs : forall x, u_absorption u = Some x -> usable g x }.
Lemma competition_ok g flag (rs : list (reaction R)) o : Forall (fun r => usable g (rx_xs r)) rs -> competition flag rs = Ok o -> forall x, o = Some x -> usable g x.
Proof.
  intros F H x ->. unfold competition in H. destruct (0 <? flag)%Z; [|discriminate]. destruct (find _ rs) as [r|] eqn:E; [|discriminate]. injection H as <-.
  apply find_some in E as [I _]. rewrite Forall_forall in F. apply F, I.
Qed.
Lemma make_urr_ok a g el ca fi he rs u : usable g el -> usable g ca -> usable g fi -> xs_on g he -> Forall (fun r => usable g (rx_xs r)) rs ->
  @make_urr R NumR a el ca fi he rs = Ok u -> urr_ok g u.
Proof.
  intros H1 H2 H3 H4 F H. unfold make_urr in H. destruct (jxs a 22 =? 0)%Z.
  - injection H as <-. split; cbn; auto; try discriminate. exists 1%Z. auto.
  - apply bind_ok in H as (Ne & Ene & H). apply bind_ok in H as (Np & Enp & H). apply bind_ok in H as (ip & Eip & H). apply bind_ok in H as (f1 & Ef1 & H).
    apply bind_ok in H as (f2 & Ef2 & H). apply bind_ok in H as (f3 & Ef3 & H). apply bind_ok in H as (en & Een & H). apply bind_ok in H as (pts & Ept & H).
    apply bind_ok in H as (u1 & _ & H). apply bind_ok in H as (inel & Ein & H). apply bind_ok in H as (ab & Eab & H). injection H as <-.
    apply u32_read in Ene. apply u32_read in Enp. unfold u32 in *. destruct (read_ptables_ok _ _ _ _ _ (proj1 Enp) Ept) as [L P]. apply slice_size in Een as (S & _).
    split; cbn; auto.
    + exists Np. split; [unfold sizeZ in S; lia|exact P].
    + eapply competition_ok; eauto.
    + eapply competition_ok; eauto.
Qed.

(** ** band selection *)
Lemma band_index_spec (cdf : list R) xi : (0 < sizeZ cdf)%Z -> xi <= getR cdf (sizeZ cdf - 1) -> in_band cdf xi (@band_index R NumR cdf xi).
Proof.
  induction cdf as [|c t IH]; intros S H; [unfold sizeZ in S; cbn in S; lia|]. cbn [band_index]. change (@nleb R NumR) with Rleb.
  destruct (Rleb_spec xi c) as [L|L].
  - split; [rewrite sizeZ_cons; pose proof (sizeZ_nonneg t); lia|]. split; [exact L|intros k K; lia].
  - destruct (Z.eq_dec (sizeZ t) 0) as [Z0|Z0].
    { exfalso. rewrite sizeZ_cons, Z0 in H. cbn in H. lra. }
    assert (IN : in_band t xi (@band_index R NumR t xi)).
    { apply IH; [pose proof (sizeZ_nonneg t); lia|]. rewrite sizeZ_cons in H. replace (sizeZ t + 1 - 1)%Z with ((sizeZ t - 1) + 1)%Z in H by lia. rewrite getR_cons_S in H by (pose proof (sizeZ_nonneg t); lia). exact H. }
    destruct IN as (I1 & I2 & I3). set (j := band_index t xi) in *. rewrite Z.add_comm. split; [rewrite sizeZ_cons; lia|]. split; [rewrite getR_cons_S by lia; exact I2|].
    intros k K. destruct (Z.eq_dec k 0) as [->|D]; [exact L|]. replace k with ((k - 1) + 1)%Z by lia. rewrite getR_cons_S by lia. apply I3; lia.
Qed.

(** ** energy bracket *)
Lemma urr_bracket_spec (u : urr R) E : (3 <= sizeZ (u_energy u))%Z -> getR (u_energy u) 0 <= E <= getR (u_energy u) (sizeZ (u_energy u) - 1) ->
  exists k f, urr_bracket u E = Ok (k, f) /\ (0 <= k < sizeZ (u_energy u) - 1)%Z /\
    (strictly_increasing (u_energy u) -> (u_loglog u = true -> 0 < getR (u_energy u) 0) ->
      getR (u_energy u) k <= E <= getR (u_energy u) (k + 1) /\ getR (u_energy u) k < getR (u_energy u) (k + 1) /\
      f = if u_loglog u then ln (E / getR (u_energy u) k) / ln (getR (u_energy u) (k + 1) / getR (u_energy u) k)
          else (E - getR (u_energy u) k) / (getR (u_energy u) (k + 1) - getR (u_energy u) k)).
Proof.
  intros S [H0 H1]. unfold urr_bracket. set (en := u_energy u) in *. destruct (lower_bound_any en E) as (k & Ek & K1 & K2 & K3). rewrite Ek. cbn [bind].
  assert (k < sizeZ en)%Z. { destruct (Z.eq_dec k (sizeZ en)) as [->|D]; [|lia]. specialize (K2 ltac:(lia)). lra. }
  rewrite atR by lia. cbn [bind]. change (@neqb R NumR) with Reqb. specialize (K3 H).
  assert (P0 : strictly_increasing en -> (u_loglog u = true -> 0 < getR en 0) -> forall j, (0 <= j < sizeZ en)%Z -> u_loglog u = true -> 0 < getR en j).
  { intros SI HP j J Q. specialize (HP Q). assert (getR en 0 <= getR en j); [|lra]. apply (strictly_increasing_increasing _ SI); lia. }
  destruct (Reqb_spec E (getR en k)) as [Q|Q]; [destruct (k =? sizeZ en - 1)%Z eqn:D|].
  - exists (k - 1)%Z, 1. split; [reflexivity|]. split; [lia|]. intros SI HP. replace (k - 1 + 1)%Z with k by lia.
    assert (getR en (k - 1) < getR en k) by (apply SI; lia). split; [lra|]. split; [lra|]. subst E. destruct (u_loglog u) eqn:LL.
    + pose proof (P0 SI HP (k - 1)%Z ltac:(lia) eq_refl). unfold Rdiv at 1. symmetry. apply Rinv_r.
      assert (0 < ln (getR en k / getR en (k - 1))); [|lra]. rewrite <- ln_1. apply ln_increasing; [lra|]. apply (Rmult_lt_reg_r (getR en (k - 1))); [assumption|]. unfold Rdiv. rewrite Rmult_assoc, Rinv_l by lra. lra.
    + field. lra.
  - exists k, 0. split; [reflexivity|]. split; [lia|]. intros SI HP. assert (getR en k < getR en (k + 1)) by (apply SI; lia). split; [lra|]. split; [lra|].
    subst E. destruct (u_loglog u) eqn:LL.
    + pose proof (P0 SI HP k ltac:(lia) eq_refl). replace (getR en k / getR en k) with 1 by (field; lra). rewrite ln_1. unfold Rdiv. ring.
    + unfold Rdiv. ring.
  - assert (0 < k)%Z. { destruct (Z.eq_dec k 0) as [->|]; [exfalso; lra|lia]. } specialize (K2 H2). replace (k - 1 + 1)%Z with k by lia.
    rewrite (atR en (k - 1)), (atR en k) by lia. cbn [bind]. eexists _, _. split; [reflexivity|]. split; [lia|].
    intros SI HP. replace (k - 1 + 1)%Z with k by lia. assert (getR en (k - 1) < getR en k) by (apply SI; lia). split; [lra|]. split; [lra|]. destruct (u_loglog u); reflexivity.
Qed.

(** ** the evaluation *)
Lemma usable_eval g x E i : grid_ok (g_vals g) -> strictly_increasing (g_vals g) -> usable g x -> brackets (g_vals g) E i -> getR (g_vals g) 0 <= E ->
  exists v, @xs_eval_i R NumR x E i = Ok v /\ 0 <= v.
Proof.
  intros G SI [U|U] B H.
  - destruct (good_eval_i g x E i G SI (proj1 U) B H) as (v & Ev & Pv & _). exists v. split; [exact Ev|apply Pv, U].
  - exists 0. split; [|lra]. apply (zero_eval_i g x E i G U).
Qed.
Lemma scale_eval (u : urr R) x E i v s : @xs_eval_i R NumR x E i = Ok s -> urr_scale u x E i v = Ok (if u_factors u then v * s else v).
Proof. intros H. unfold urr_scale. rewrite H. destruct (u_factors u); reflexivity. Qed.
Lemma no_negative_R v : @no_negative R NumR v = Rmax 0 v.
Proof. unfold no_negative, Rmax. change (@nltb R NumR) with Rltb. change (@nofZ R NumR 0) with 0. destruct (Rltb_spec v 0), (Rle_dec 0 v); lra. Qed.
Lemma urr_interp_R (u : urr R) f lo hi : @urr_interp R NumR u f lo hi = if u_loglog u then if Rlt_dec 0 lo then if Rlt_dec 0 hi then exp (ln lo + f * ln (hi / lo)) else 0 else 0 else lo + f * (hi - lo).
Proof.
  unfold urr_interp. change (@nltb R NumR) with Rltb. change (@nofZ R NumR 0) with 0. destruct (u_loglog u); [|reflexivity].
  destruct (Rltb_spec 0 lo), (Rlt_dec 0 lo); try lra; cbn [andb]; [|reflexivity]. destruct (Rltb_spec 0 hi), (Rlt_dec 0 hi); try lra; reflexivity.
Qed.

(** the value of one partial: [sel] picks the partial of a band, [x] is its smooth cross section *)
Lemma urr_eval_inside g u E i xi : grid_ok (g_vals g) -> strictly_increasing (g_vals g) -> urr_ok g u -> brackets (g_vals g) E i -> getR (g_vals g) 0 <= E ->
  (3 <= sizeZ (u_energy u))%Z -> getR (u_energy u) 0 <= E <= getR (u_energy u) (sizeZ (u_energy u) - 1) -> xi <= 1 ->
  exists p other, urr_evaluate u E i xi = Ok (Some p) /\
    0 <= elastic p /\ 0 <= inelastic p /\ 0 <= capture p /\ 0 <= fission p /\ 0 <= heating p /\ 0 <= other /\
    opt_eval (u_inelastic u) E i = Ok (inelastic p) /\ opt_eval (u_absorption u) E i = Ok other /\
    absorption p = capture p + fission p + other /\ total p = elastic p + inelastic p + absorption p /\
    (strictly_increasing (u_energy u) -> (u_loglog u = true -> 0 < getR (u_energy u) 0) ->
      exists k tl th jl jh bl bh se sc sf sh, (0 <= k < sizeZ (u_energy u) - 1)%Z /\ getR (u_energy u) k <= E <= getR (u_energy u) (k + 1) /\
        atZ (u_ptables u) k = Ok tl /\ atZ (u_ptables u) (k + 1) = Ok th /\ in_band (pt_cdf tl) xi jl /\ in_band (pt_cdf th) xi jh /\
        atZ (pt_bands tl) jl = Ok bl /\ atZ (pt_bands th) jh = Ok bh /\
        xs_eval_i (u_elastic u) E i = Ok se /\ xs_eval_i (u_capture u) E i = Ok sc /\ xs_eval_i (u_fission u) E i = Ok sf /\ xs_eval_i (u_heating u) E i = Ok sh /\
        elastic p = partial_value u E k bl bh b_elastic se /\ capture p = partial_value u E k bl bh b_capture sc /\
        fission p = partial_value u E k bl bh b_fission sf /\ heating p = partial_value u E k bl bh b_heating sh).
Proof.
  intros G SI [(n & UL & UP) U1 U2 U3 U4 U5 U6] B H0 S H1 Hx. unfold urr_evaluate. unfold urr_valid.
  replace (2 <? sizeZ (u_energy u))%Z with true by lia. cbn [negb]. rewrite frontR_R, backR_R by lia. cbn [bind].
  change (@nltb R NumR) with Rltb. replace (Rltb E (getR (u_energy u) 0)) with false by (symmetry; apply Rltb_false; lra).
  replace (Rltb (getR (u_energy u) (sizeZ (u_energy u) - 1)) E) with false by (symmetry; apply Rltb_false; lra). cbn [orb].
  destruct (urr_bracket_spec u E S H1) as (k & f & Eb & K & Kf). rewrite Eb. cbn [bind fst snd].
  assert (SP : sizeZ (u_ptables u) = sizeZ (u_energy u)) by (unfold sizeZ; lia).
  destruct (atZ_ok (u_ptables u) k ltac:(lia)) as (tl & Etl). destruct (atZ_ok (u_ptables u) (k + 1) ltac:(lia)) as (th & Eth). rewrite Etl, Eth. cbn [bind].
  rewrite Forall_forall in UP. pose proof (UP _ (atZ_In _ _ _ Etl)) as [[L1 [L2 L3]] L4 _ _ _ L5]. pose proof (UP _ (atZ_In _ _ _ Eth)) as [[M1 [M2 M3]] M4 _ _ _ M5].
  assert (Bl : in_band (pt_cdf tl) xi (@band_index R NumR (pt_cdf tl) xi)) by (apply band_index_spec; [lia|rewrite L1, L4; exact Hx]).
  assert (Bh : in_band (pt_cdf th) xi (@band_index R NumR (pt_cdf th) xi)) by (apply band_index_spec; [lia|rewrite M1, M4; exact Hx]).
  set (jl := band_index (pt_cdf tl) xi) in *. set (jh := band_index (pt_cdf th) xi) in *.
  destruct (atZ_ok (pt_bands tl) jl ltac:(destruct Bl; lia)) as (bl & Ebl). destruct (atZ_ok (pt_bands th) jh ltac:(destruct Bh; lia)) as (bh & Ebh). rewrite Ebl, Ebh. cbn [bind].
  destruct (usable_eval g _ E i G SI U1 B H0) as (se & Ese & _). destruct (usable_eval g _ E i G SI U2 B H0) as (sc & Esc & _). destruct (usable_eval g _ E i G SI U3 B H0) as (sf & Esf & _).
  destruct (good_eval_i g _ E i G SI U4 B H0) as (sh & Esh & _).
  rewrite (scale_eval u _ E i _ _ Ese), (scale_eval u _ E i _ _ Esc), (scale_eval u _ E i _ _ Esf), (scale_eval u _ E i _ _ Esh). cbn [bind].
  assert (IN : exists iv, opt_eval (u_inelastic u) E i = Ok iv /\ 0 <= iv).
  { destruct (u_inelastic u) as [x|]; cbn [opt_eval]; [apply (usable_eval g); auto|exists 0; split; [reflexivity|lra]]. }
  assert (OT : exists iv, opt_eval (u_absorption u) E i = Ok iv /\ 0 <= iv).
  { destruct (u_absorption u) as [x|]; cbn [opt_eval]; [apply (usable_eval g); auto|exists 0; split; [reflexivity|lra]]. }
  destruct IN as (iv & Ei & Pi). destruct OT as (ov & Eo & Po). rewrite Ei, Eo. cbn [bind]. eexists _, ov. split; [reflexivity|].
  cbn [total elastic inelastic absorption fission capture heating]. rewrite !no_negative_R.
  split; [apply Rmax_l|]. split; [exact Pi|]. split; [apply Rmax_l|]. split; [apply Rmax_l|]. split; [apply Rmax_l|]. split; [exact Po|]. split; [reflexivity|]. split; [reflexivity|].
  split; [reflexivity|]. split; [reflexivity|]. intros SE HP. destruct (Kf SE HP) as (K1 & K2 & K3).
  exists k, tl, th, jl, jh, bl, bh, se, sc, sf, sh. rewrite !urr_interp_R. unfold partial_value, between_values.
  repeat (split; [assumption|]). destruct (u_loglog u); rewrite K3; repeat split; reflexivity.
Qed.
Lemma urr_eval_none (u : urr R) E i xi : (sizeZ (u_energy u) <= 2)%Z \/ E < getR (u_energy u) 0 \/ getR (u_energy u) (sizeZ (u_energy u) - 1) < E -> urr_evaluate u E i xi = Ok None.
Proof.
  intros H. unfold urr_evaluate, urr_valid. destruct (2 <? sizeZ (u_energy u))%Z eqn:S; [|reflexivity]. cbn [negb]. rewrite frontR_R, backR_R by lia. cbn [bind].
  change (@nltb R NumR) with Rltb. destruct H as [H|[H|H]]; [lia| |].
  - replace (Rltb E (getR (u_energy u) 0)) with true by (symmetry; apply Rltb_true; lra). reflexivity.
  - replace (Rltb (getR (u_energy u) (sizeZ (u_energy u) - 1)) E) with true by (symmetry; apply Rltb_true; lra). rewrite orb_true_r. reflexivity.
Qed.
Lemma urr_range_spec (u : urr R) E : urr_in_range u E = Ok true <-> (2 <= sizeZ (u_energy u))%Z /\ getR (u_energy u) 0 <= E <= getR (u_energy u) (sizeZ (u_energy u) - 1).
Proof.
  unfold urr_in_range. destruct (sizeZ (u_energy u) <? 2)%Z eqn:S; [split; [discriminate|lia]|]. rewrite frontR_R, backR_R by lia. cbn [bind]. change (@nleb R NumR) with Rleb.
  destruct (Rleb_spec (getR (u_energy u) 0) E), (Rleb_spec E (getR (u_energy u) (sizeZ (u_energy u) - 1))); cbn; split; intros; try discriminate; try (split; [lia|lra]); try reflexivity; lra.
Qed.
