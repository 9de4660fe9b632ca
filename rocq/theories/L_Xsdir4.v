(** * Lemmas for C86: the library built from the text *)
From Coq Require Import String Ascii List. Import ListNotations.
From Coq Require Import Lia ZifyBool ZifyNat.
From Verif Require Import Base M_Grid L_Search M_Ident L_Ident L_Ident2 S_Ident L_Ident3 M_Library S_Library L_Library M_Xsdir S_Xsdir L_Xsdir L_Xsdir2 L_Xsdir3.
Local Open Scope list_scope.
Local Open Scope Z_scope.
Local Open Scope bool_scope.

Section Text.
  Context {T : Type} {N : Num T}.
  Variable stod : str -> res T.
  Variable stoul_of : str -> res Z.
  Variable to_kelvin : T -> T.
  Lemma entry_rows d ls : Forall line_ok ls -> Forall2 (entry_row d) ls (map (with_path d) (map line_entry ls)).
  Proof.
    induction 1 as [|l ls L _ IH]; cbn [map]; constructor; [|exact IH]. unfold entry_row, with_path. destruct (line_entry l) as [|z [|a [|f r]]] eqn:E; try reflexivity. exists (path_join d f). split; [|reflexivity]. apply path_join_located. intros ->.
    destruct l as [n|lead w more trail]; [discriminate|]. cbn [line_entry] in E. injection E as _ E. destruct L as [_ M]. destruct more as [|[s1 w1] [|[s2 w2] more]]; try discriminate. cbn [map snd] in E. injection E as _ -> _. inversion M as [|? ? _ M1]; subst. inversion M1 as [|? ? [_ (W & _)] _]; subst. cbn in W. congruence.
  Qed.
  Lemma entry_rows_unique d ls rows : Forall line_ok ls -> Forall2 (entry_row d) ls rows -> rows = map (with_path d) (map line_entry ls).
  Proof.
    intros F H. induction H as [|l row ls rows H _ IH]; [reflexivity|]. inversion F as [|? ? L F']; subst. cbn [map]. rewrite <- IH by exact F'. f_equal. unfold entry_row in H. unfold with_path. destruct (line_entry l) as [|z [|a [|f r]]] eqn:E; try exact H. destruct H as (p & Lp & ->). do 2 f_equal. f_equal. apply located_join; [|exact Lp]. intros ->.
    destruct l as [n|lead w more trail]; [discriminate|]. cbn [line_entry] in E. injection E as _ E. destruct L as [_ M]. destruct more as [|[s1 w1] [|[s2 w2] more]]; try discriminate. cbn [map snd] in E. injection E as _ -> _. inversion M as [|? ? _ M1]; subst. inversion M1 as [|? ? [_ (W & _)] _]; subst. cbn in W. congruence.
  Qed.
  Lemma mcnp_text parent t pairs d ls rows : xsdir parent t pairs d ls -> Forall2 (entry_row d) ls rows ->
    MCNPLibrary_text stod stoul_of to_kelvin parent t = (let! awrs := awr_pairs stod (flat_map pair_words pairs) [] in MCNPLibrary stod stoul_of to_kelvin awrs rows).
  Proof.
    intros ((pre & title & post & Et & Ht & Np & F & E & B) & D & (pre3 & k3 & n & Et3 & S3 & B3 & F3)) R. rewrite (entry_rows_unique d ls rows F3 R). unfold MCNPLibrary_text. rewrite (read_awrs_ok stod t pre title pairs post Et Ht Np F E B). rewrite (read_lines_ok t pre3 k3 n ls Et3 S3 B3 F3). cbn [bind].
    replace (read_datapath parent t) with d; [reflexivity|]. symmetry. destruct D as [[D ->]|(pre2 & k & e & post2 & E2 & S2 & B2 & A2 & P2 & Q2 & D2)]; [apply read_datapath_none, D|]. apply (read_datapath_ok parent t pre2 k e d post2 E2 S2 B2 A2 P2); [|exact D2]. destruct post2 as [|y post2]; [exact I|]. cbn. exact (Q2 y post2 eq_refl).
  Qed.
  Lemma mcnp_text_no_awr parent t : nowhere (txt "atomic") t -> MCNPLibrary_text stod stoul_of to_kelvin parent t = Throw.
  Proof. intros H. unfold MCNPLibrary_text. rewrite read_awrs_none by exact H. reflexivity. Qed.
  Lemma awr_pairs_or ws : (forall s, stod s = Throw \/ exists v, stod s = Ok v) -> forall m, awr_pairs stod ws m = Throw \/ exists m', awr_pairs stod ws m = Ok m'.
  Proof.
    intros H. remember (length ws) as k eqn:Ek. revert ws Ek. induction k as [k IH] using (well_founded_induction lt_wf); intros ws Ek m. destruct ws as [|z [|a r]]; cbn [awr_pairs]; [right; eauto|right; eauto|]. destruct (H a) as [-> |[v ->]]; cbn [bind]; [left; reflexivity|]. apply (IH (length r)); [subst k; cbn; lia|reflexivity].
  Qed.
  Lemma mcnp_text_no_directory parent t : (forall s, stod s = Throw \/ exists v, stod s = Ok v) -> nowhere (txt "directory") t -> MCNPLibrary_text stod stoul_of to_kelvin parent t = Throw.
  Proof.
    intros St H. unfold MCNPLibrary_text. rewrite read_lines_none by exact H. unfold read_awrs. destruct (regex_find rx_awr t); [|reflexivity]. destruct (awr_pairs_or (skipn 3 (words_of (match_str p))) St []) as [->|[m' ->]]; reflexivity.
  Qed.
  (** atomic weight ratios *)
  Lemma lib_awr_kept : forall lines lib lib', mcnp_rows stod stoul_of to_kelvin lines lib = Ok lib' -> lib_awr lib' = lib_awr lib.
  Proof.
    induction lines as [|ws lines IH]; intros lib lib' H; cbn [mcnp_rows] in H; [congruence|]. apply bind_ok in H as (lib1 & H1 & H). rewrite (IH lib1 lib' H). unfold mcnp_row in H1. destruct ws as [|w0 ws]; [congruence|]. destruct (_ || _); [discriminate|]. cbv zeta in H1. destruct (_ && _); [congruence|]. apply bind_ok in H1 as (tp & _ & H1). destruct (Ascii.eqb _ _).
    - apply bind_ok in H1 as (za & _ & H1). injection H1 as <-. reflexivity.
    - injection H1 as <-. reflexivity.
  Qed.
  Lemma mcnp_awr awrs lines lib : MCNPLibrary stod stoul_of to_kelvin awrs lines = Ok lib -> lib_awr lib = awrs.
  Proof. unfold MCNPLibrary. intros H. apply bind_ok in H as (lib0 & H0 & H). apply bind_ok in H as (syms & _ & H). injection H as <-. cbn. rewrite (lib_awr_kept _ _ _ H0). reflexivity. Qed.
  Lemma number_zaid n Z0 A : 0 <= n < 2 ^ 32 -> 0 <= A < 1000 -> 0 <= Z0 < 256 -> zaid_of_number (wrap32 n) = mkZaid Z0 A <-> n = 1000 * Z0 + A.
  Proof.
    intros Hn HA HZ. unfold zaid_of_number, wrap32. rewrite (Z.mod_small n) by lia. pose proof (Z.div_mod n 1000 ltac:(lia)) as D. pose proof (Z.mod_pos_bound n 1000 ltac:(lia)) as M. pose proof (Z.div_mod (n / 1000) 256 ltac:(lia)) as D2. pose proof (Z.mod_pos_bound (n / 1000) 256 ltac:(lia)) as M2.
    assert (0 <= n / 1000) by (apply Z.div_pos; lia). assert (0 <= n / 1000 / 256) by (apply Z.div_pos; lia). rewrite (Z.mod_small (n - (n / 1000) mod 256 * 1000)) by lia. split.
    - intros H1. injection H1 as H1 H2. lia.
    - intros ->. f_equal; [|assert ((1000 * Z0 + A) / 1000 = Z0) as -> by (symmetry; apply (Z.div_unique _ _ _ A); lia); rewrite Z.mod_small by lia; lia]. assert ((1000 * Z0 + A) / 1000 = Z0) as -> by (symmetry; apply (Z.div_unique _ _ _ A); lia). apply Z.mod_small; lia.
  Qed.
  Lemma stoul_digit c : is_digit c = true -> 0 <= code c - 48 <= 9.
  Proof. unfold is_digit. lia. Qed.
  Lemma stoul_bound : forall w, all is_digit w -> 0 <= stoul w < 10 ^ Z.of_nat (length w).
  Proof.
    induction w as [|c w IH] using rev_ind; intros W; [cbn; lia|]. apply all_app in W as [W Wc]. apply all_cons in Wc as [Wc _]. specialize (IH W). rewrite stoul_snoc, app_length. cbn [length]. apply stoul_digit in Wc. replace (Z.of_nat (length w + 1)) with (Z.of_nat (length w) + 1) by lia. rewrite Z.pow_add_r by lia. lia.
  Qed.
  Lemma pair_number p : pair_ok p -> 0 <= stoul (p_zaid p) < 2 ^ 32 /\ forall v, denotes (p_zaid p) v <-> stoul (p_zaid p) = v.
  Proof.
    intros (_ & D & L & _). apply digits_all in D as [Nz W]. split.
    - pose proof (stoul_bound _ W) as B. assert (10 ^ Z.of_nat (length (p_zaid p)) <= 10 ^ 6) by (apply Z.pow_le_mono_r; lia). lia.
    - intros v. rewrite denotes_iff. intuition.
  Qed.
  Lemma awr_lookup Z0 A : 0 <= A < 1000 -> 0 <= Z0 < 256 -> forall pairs m m', Forall pair_ok pairs -> awr_pairs stod (flat_map pair_words pairs) m = Ok m' ->
    forall v, lookup zaid_eq (mkZaid Z0 A) m' = Some v <-> given_awr (fun w v => stod w = Ok v) pairs Z0 A v \/ lookup zaid_eq (mkZaid Z0 A) m = Some v /\ (forall q, In q pairs -> ~ denotes (p_zaid q) (1000 * Z0 + A)).
  Proof.
    intros HA HZ. induction pairs as [|p pairs IH]; intros m m' F H v; cbn [flat_map pair_words app awr_pairs] in H.
    - injection H as <-. split; [intros E; right; split; [exact E|intros q []]|]. intros [(ps1 & p & ps2 & E & _)|[E _]]; [destruct ps1; discriminate|exact E].
    - apply bind_ok in H as (x & Hx & H). inversion F as [|? ? P F']; subst. rewrite (IH _ _ F' H v). rewrite (lookup_assign zaid_eq zaid_eqb_iff). destruct (pair_number p P) as [Bn Dn]. split.
      + intros [(ps1 & q & ps2 & -> & G)|[E G]].
        * left. exists (p :: ps1), q, ps2. split; [reflexivity|exact G].
        * destruct (zaid_eq (zaid_of_number (wrap32 (stoul (p_zaid p)))) (mkZaid Z0 A)) eqn:Q.
          -- injection E as ->. apply zaid_eqb_iff, number_zaid in Q; [|assumption..]. left. exists [], p, pairs. split; [reflexivity|]. split; [apply Dn, Q|]. split; [exact Hx|exact G].
          -- right. split; [exact E|]. intros q [<-|Hq]; [|apply G, Hq]. intros D. apply Dn in D. apply (number_zaid _ Z0 A Bn HA HZ) in D. apply zaid_eqb_iff in D. congruence.
      + intros [(ps1 & q & ps2 & E & D & V & G)|[E G]].
        * destruct ps1 as [|p1 ps1]; injection E as -> ->.
          -- right. apply Dn in D. apply (number_zaid _ Z0 A Bn HA HZ) in D. rewrite D. assert (zaid_eq (mkZaid Z0 A) (mkZaid Z0 A) = true) as -> by (apply zaid_eqb_iff; reflexivity). split; [congruence|exact G].
          -- left. exists ps1, q, ps2. split; [reflexivity|]. split; [exact D|]. split; [exact V|exact G].
        * right. split; [|intros q Hq; apply G; right; exact Hq]. destruct (zaid_eq _ _) eqn:Q; [|exact E]. apply zaid_eqb_iff, number_zaid in Q; [|assumption..]. elim (G p (or_introl eq_refl)). apply Dn, Q.
  Qed.
  Lemma mcnp_text_awr parent t pairs d ls lib : xsdir parent t pairs d ls -> MCNPLibrary_text stod stoul_of to_kelvin parent t = Ok lib ->
    forall s Z0 A, symbol_to_zaid s = Ok (mkZaid Z0 A) -> 0 <= A < 1000 -> 0 <= Z0 < 256 -> forall v, atomic_weight_ratio lib s = Ok v <-> given_awr (fun w v => stod w = Ok v) pairs Z0 A v.
  Proof.
    intros X H s Z0 A Hs HA HZ v. pose proof X as ((_ & _ & _ & _ & _ & _ & F & _) & _ & (_ & _ & _ & _ & _ & _ & F3)). rewrite (mcnp_text parent t pairs d ls _ X (entry_rows d ls F3)) in H. apply bind_ok in H as (awrs & Ha & H). apply mcnp_awr in H.
    pose proof (awr_lookup Z0 A HA HZ pairs [] awrs F Ha v) as L. unfold atomic_weight_ratio. rewrite Hs, H. cbn [bind]. split.
    - intros E. destruct (lookup zaid_eq (mkZaid Z0 A) awrs) eqn:Q; [|discriminate]. assert (t0 = v) as -> by congruence. destruct (proj1 L eq_refl) as [G|[G _]]; [exact G|discriminate].
    - intros G. rewrite (proj2 L (or_introl G)). reflexivity.
  Qed.
  (** Serpent *)
  Lemma laid_words ws t : laid_out ws t -> words_of t = ws.
  Proof.
    induction 1 as [g G|g w ws t G Nw W L IH E].
    - apply words_blank, blanks_all, G.
    - rewrite words_next; [rewrite IH; reflexivity|apply blanks_all, G|split; [exact Nw|intros c Hc; destruct (is_space c) eqn:Q; [|reflexivity]; elim (W c Hc); apply blank_space, Q]|].
      destruct ws as [|w' ws]; [|destruct (E ltac:(discriminate)) as (c & r & -> & Hc); apply blank_space, Hc]. inversion L as [g' G' E1 E2|]; subst. apply blanks_all in G'. destruct t as [|x t]; [exact I|]. cbn. apply G'. left. reflexivity.
  Qed.
  Lemma serpent_text ws t : laid_out ws t -> t <> [] -> SerpentLibrary_text stod stoul_of t = SerpentLibrary stod stoul_of ws (is_space (last t "000"%char)).
  Proof. intros L Nt. unfold SerpentLibrary_text. rewrite (laid_words ws t L). destruct t; [congruence|reflexivity]. Qed.
End Text.
