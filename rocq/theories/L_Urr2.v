(** * The unresolved-resonance block is decoded as laid out; its smooth cross sections *)
From Coq Require Import Reals Lra Lia List ZifyBool ZifyNat.
From Verif Require Import Base NumR L_Search L_SearchR M_Interp M_Grid M_PC M_Ace M_Neutron S_Neutron S_Urr L_Grid L_Xs L_Neutron L_Neutron4 L_Ace L_Laws.
Import ListNotations.
Local Open Scope R_scope.

Lemma zip_nth : forall (t e f c h : list R), length e = length t -> length f = length t -> length c = length t -> length h = length t ->
  length (zip_bands t e f c h) = length t /\
  forall k, (k < length t)%nat -> nth_error (zip_bands t e f c h) k = Some (mkBand (nth k t 0) (nth k e 0) (nth k f 0) (nth k c 0) (nth k h 0)).
Proof.
  induction t as [|x t IH]; intros [|x1 e] [|x2 f] [|x3 c] [|x4 h]; cbn [length]; intros; try discriminate; [split; [reflexivity|intros; lia]|].
  destruct (IH e f c h) as [L K]; try lia. cbn [zip_bands length]. split; [lia|]. intros [|k] Hk; [reflexivity|]. cbn [nth_error nth]. apply K. lia.
Qed.
Lemma rows_read a i n r : rows_ok n r -> holds a i (rows_block r) -> exists p, read_ptable a i n = Ok p /\ rows_kept n r p.
Proof.
  intros [Hn Ht He Hf Hc Hh I P0 PL NN] H. rewrite !Forall_app in NN. destruct NN as (N1 & N2 & N3 & N4). unfold sizeZ in *.
  assert (NL : forall l : list R, Forall (fun v => 0 <= v) l -> nonneg l) by (intros l Fl; rewrite Forall_forall in Fl; exact Fl).
  destruct (read_ptable_block a i (r_cdf r) (r_total r) (r_elastic r) (r_fission r) (r_capture r) (r_heating r)) as (p & E & B & S1 & L1 & K); auto; try lia.
  { unfold sizeZ. rewrite Hn. exact PL. }
  unfold sizeZ in *. rewrite Hn in *. exists p. split; [exact E|]. destruct (zip_nth (r_total r) (r_elastic r) (r_fission r) (r_capture r) (r_heating r)) as [ZL ZN]; try lia.
  split; [exact S1|]. split; [unfold sizeZ; rewrite B, ZL; exact Ht|]. split; [exact L1|]. split; [exact K|]. intros k Hk. rewrite B. apply ZN. lia.
Qed.
Lemma rows_size n r : rows_ok n r -> sizeZ (rows_block r) = (6 * n)%Z.
Proof. intros [Hn Ht He Hf Hc Hh _ _ _ _]. unfold rows_block, ptable_block. rewrite !sizeZ_app. lia. Qed.
Lemma tables_read a n : forall ts i, Forall (rows_ok n) ts -> holds a i (concat (map rows_block ts)) -> exists ps, read_ptables (length ts) a i n = Ok ps /\ Forall2 (rows_kept n) ts ps.
Proof.
  induction ts as [|r ts IH]; intros i F H; [exists []; split; [reflexivity|constructor]|]. inversion F as [|? ? F1 F2]; subst. cbn [map concat] in H. apply holds_app in H as [H1 H2].
  rewrite (rows_size n r F1) in H2. destruct (rows_read a i n r F1 H1) as (p & E & K). destruct (IH _ F2 H2) as (ps & E2 & K2). cbn [length read_ptables]. rewrite E. cbn [bind]. rewrite E2. exists (p :: ps). split; [reflexivity|constructor; assumption].
Qed.
Lemma competes_ok flag rs x : competes flag rs x -> competition flag rs = Ok x.
Proof.
  unfold competition. intros [[Hf ->]|[Hf (l & r & l' & -> & M & F & ->)]]; [replace (0 <? flag)%Z with false by lia; reflexivity|]. replace (0 <? flag)%Z with true by lia.
  assert (X : find (fun q => rx_mt q =? flag)%Z (l ++ r :: l') = Some r); [|rewrite X; reflexivity].
  induction F as [|q l Hq F IH]; cbn [app find]; [replace (rx_mt r =? flag)%Z with true by lia; reflexivity|]. replace (rx_mt q =? flag)%Z with false by lia. exact IH.
Qed.
Lemma i32_at a i z : (- 2 ^ 31 <= z < 2 ^ 31)%Z -> xss a i = Ok (IZR z) -> xss_i32 a i = Ok z.
Proof. intros B H. unfold xss_i32. rewrite H. apply trunc_i32_IZR, B. Qed.
Lemma urr_read a el ca fi he rs n interp inel absorb factors energy ts xi xa : jxs a 22 <> 0%Z -> u32 (sizeZ energy) -> u32 n -> (interp = 2 \/ interp = 5)%Z ->
  (- 2 ^ 31 <= inel < 2 ^ 31)%Z -> (- 2 ^ 31 <= absorb < 2 ^ 31)%Z -> (- 2 ^ 31 <= factors < 2 ^ 31)%Z -> length ts = length energy -> Forall (rows_ok n) ts ->
  competes inel rs xi -> competes absorb rs xa -> holds a (jxs a 22 - 1) (urr_block n interp inel absorb factors energy ts) ->
  exists u, make_urr a el ca fi he rs = Ok u /\ u_energy u = energy /\ (u_loglog u = true <-> interp = 5%Z) /\ (u_factors u = true <-> factors = 1%Z) /\
    u_elastic u = el /\ u_capture u = ca /\ u_fission u = fi /\ u_heating u = he /\ u_inelastic u = xi /\ u_absorption u = xa /\ Forall2 (rows_kept n) ts (u_ptables u).
Proof.
  intros J U1 U2 Hi B1 B2 B3 L F C1 C2 H. unfold make_urr. replace (jxs a 22 =? 0)%Z with false by lia. unfold LUNR. set (p := (jxs a 22 - 1)%Z) in *. unfold urr_block in H. cbn [app] in H.
  pose proof (holds_u32 a p _ _ U1 H) as E0. apply holds_cons in H as [_ H]. pose proof (holds_u32 a _ _ _ U2 H) as E1. apply holds_cons in H as [_ H].
  assert (U3 : u32 interp) by (unfold u32; lia). pose proof (holds_u32 a _ _ _ U3 H) as E2. apply holds_cons in H as [_ H]. apply holds_cons in H as [E3 H]. apply holds_cons in H as [E4 H]. apply holds_cons in H as [E5 H].
  apply (i32_at a _ _ B1) in E3. apply (i32_at a _ _ B2) in E4. apply (i32_at a _ _ B3) in E5. apply holds_app in H as [H1 H2].
  replace (p + 1 + 1)%Z with (p + 2)%Z in * by lia. replace (p + 2 + 1)%Z with (p + 3)%Z in * by lia. replace (p + 3 + 1)%Z with (p + 4)%Z in * by lia. replace (p + 4 + 1)%Z with (p + 5)%Z in * by lia. replace (p + 5 + 1)%Z with (p + 6)%Z in * by lia.
  rewrite E0. cbn [bind]. rewrite E1. cbn [bind]. rewrite E2. cbn [bind]. rewrite E3. cbn [bind]. rewrite E4. cbn [bind]. rewrite E5. cbn [bind]. rewrite (holds_vec _ _ _ H1). cbn [bind].
  replace (Z.to_nat (sizeZ energy)) with (length ts) by (unfold sizeZ; lia). destruct (tables_read a n ts _ F H2) as (ps & Ep & Kp). rewrite Ep. cbn [bind].
  replace ((interp =? 2) || (interp =? 5))%Z%bool with true by lia. cbn [bind]. rewrite (competes_ok _ _ _ C1). cbn [bind]. rewrite (competes_ok _ _ _ C2). cbn [bind].
  eexists. split; [reflexivity|]. cbn [u_energy u_loglog u_factors u_elastic u_capture u_fission u_heating u_inelastic u_absorption u_ptables]. rewrite !Z.eqb_eq. repeat (split; [tauto|]). repeat (split; [reflexivity|]). exact Kp.
Qed.
(** the smooth cross sections the factors multiply *)
Lemma finish_urr {T} {N : Num T} (a : ace T) g temp fissile xs el f mts idx rs n : finish a g temp fissile xs el f mts idx rs = Ok n ->
  u_elastic (n_urr n) = n_elastic_xs n /\ u_heating (n_urr n) = n_heating n /\ u_fission (n_urr n) = n_fission_xs n /\
  ((exists r, neutron_reaction n 102 = Ok r /\ u_capture (n_urr n) = rx_xs r) \/ (neutron_has n 102 = Ok false /\ make_xs_single (nofZ 0) (n_grid n) = Ok (u_capture (n_urr n)))).
Proof.
  unfold finish. destruct xs as [[[[tot dis] ela] hea] pho]. intros H. apply bind_ok in H as (fx & Ef & H). apply bind_ok in H as (h & Eh & H).
  apply bind_ok in H as (cx & Ec & H). apply bind_ok in H as (u & Eu & H). injection H as <-. unfold neutron_reaction, neutron_has. cbn [n_urr n_elastic_xs n_heating n_fission_xs n_grid n_fission n_indices n_reactions].
  assert (X : u_elastic u = ela /\ u_heating u = hea /\ u_fission u = fx /\ u_capture u = cx).
  { clear - Eu. unfold make_urr in Eu. destruct (jxs a 22 =? 0)%Z; [injection Eu as <-; auto|]. repeat (apply bind_ok in Eu as (? & _ & Eu)). injection Eu as <-. auto. }
  destruct X as (-> & -> & -> & ->). repeat (split; [reflexivity|]). rewrite Eh. destruct h; [left|right; split; [reflexivity|exact Ec]].
  apply bind_ok in Ec as (r & Er & Ec). injection Ec as <-. exists r. auto.
Qed.
