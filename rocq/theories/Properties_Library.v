(** * C55, C56, C67-C69: nuclear data libraries *)
From Verif Require Import Base NumR L_Search M_Grid M_Ident L_Ident L_Ident2 S_Ident L_Ident3 M_Library S_Library L_Library L_Library2 L_Library3.
From Coq Require Import Reals Lra.
From Coq Require Import String Ascii List Sorted Permutation. Import ListNotations.
From Coq Require Import ZifyBool ZifyNat.
Local Open Scope list_scope.
Local Open Scope Z_scope.

(** ** C55. nearest_temperature: one of the available temperatures, and the nearest one when they are strictly increasing *)
Theorem C55_nearest_available (lib : @library R) symbol l T0 : find_list lib symbol = Ok l -> l_temps l <> [] ->
  exists t, nearest_temperature lib symbol T0 = Ok t /\ In t (l_temps l).
Proof. intros F H. unfold nearest_temperature. rewrite F. exact (nearest_in T0 (l_temps l) H). Qed.
Theorem C55_nearest_partial (lib : @library R) symbol l T0 : find_list lib symbol = Ok l -> l_temps l <> [] -> StronglySorted Rlt (l_temps l) ->
  exists t, nearest_temperature lib symbol T0 = Ok t /\ nearest_to T0 (l_temps l) t.
Proof. intros F H S. unfold nearest_temperature. rewrite F. exact (nearest_strict T0 (l_temps l) S H). Qed.
(** with a repeated temperature (two evaluations of the same nuclide at one temperature) it need not be the nearest: a Serpent file with
    U235 at 600 K and 300 K that ends with a newline *)
Theorem C55_nearest_refuted : exists lib, SerpentLibrary (stod_ex 600 300) stoul_ex (words two_rows) true = Ok lib /\
  temperatures lib (w_ "U235") = Ok [300; 300; 600]%R /\ nearest_temperature lib (w_ "U235") 600%R = Ok 300%R.
Proof.
  exists (lib_ex 600 300). split; [apply serpent_newline_ex; lra|]. split; [vm_compute; reflexivity|]. unfold nearest_temperature. assert (find_list (lib_ex 600 300) (w_ "U235") = Ok (mkList [mkTable (w_ "u3.ace") false 300%R; mkTable (w_ "u3.ace") false 300%R; mkTable (w_ "u6.ace") false 600%R] [None; None; None] [300; 300; 600]%R None)) as -> by (vm_compute; reflexivity).
  cbn [bind l_temps]. unfold nearest_of. cbn [nearest_loop]. change (@nltb R NumR) with Rltb. change (@nabs R NumR) with Rabs. change (@nsub R NumR) with Rminus. destruct (Rltb_spec (Rabs (600 - 300)) (Rabs (600 - 300))) as [Q|_]; [lra|reflexivity].
Qed.
(** loading: an exception, and nothing else, exactly when no temperature is within the tolerance (or reading fails) *)
Theorem C55_load_neutron_partial good (lib : @library R) w s z l (T0 tol : R) : symbol_to_zaid s = Ok z -> lookup zaid_eq z (lib_neutron lib) = Some l -> (tol <= IZR (10 ^ 300))%R ->
  match asks lib (AskNeutron s T0 tol) with
  | Some sl => exists i t, sl = SlotN z i /\ nth_error (l_temps l) i = Some t /\ within tol T0 t /\ (forall j u, (j < i)%nat -> nth_error (l_temps l) j = Some u -> ~ within tol T0 u)
  | None => (forall t, In t (l_temps l) -> ~ within tol T0 t) /\ load_STNeutron good lib s T0 tol w = (Throw, lib, w)
  end.
Proof.
  intros Hs L HT. pose proof (asks_neutron lib s z l T0 tol Hs L HT) as P. destruct (asks lib (AskNeutron s T0 tol)) eqn:A; [exact P|]. split; [exact P|]. exact (serve_none good lib (AskNeutron s T0 tol) w A).
Qed.
Theorem C55_load_tsl_partial good (lib : @library R) w s n l (T0 tol : R) : tsl_name s = Some n -> lookup str_eqb n (lib_tsl lib) = Some l -> (tol <= IZR (10 ^ 300))%R ->
  match asks lib (AskTSL s T0 tol) with
  | Some sl => exists i t, sl = SlotT n i /\ nth_error (l_temps l) i = Some t /\ within tol T0 t /\ (forall j u, (j < i)%nat -> nth_error (l_temps l) j = Some u -> ~ within tol T0 u)
  | None => (forall t, In t (l_temps l) -> ~ within tol T0 t) /\ load_STTSL good lib s T0 tol w = (Throw, lib, w)
  end.
Proof.
  intros Hs L HT. pose proof (asks_tsl lib s n l T0 tol Hs L HT) as P. destruct (asks lib (AskTSL s T0 tol)) eqn:A; [exact P|]. split; [exact P|]. exact (serve_none good lib (AskTSL s T0 tol) w A).
Qed.
(** it is the nearest one when the temperatures are further apart than twice the tolerance *)
Theorem C55_load_nearest_partial (lib : @library R) s z l (T0 tol : R) i : symbol_to_zaid s = Ok z -> lookup zaid_eq z (lib_neutron lib) = Some l -> (tol <= IZR (10 ^ 300))%R ->
  (forall u v, In u (l_temps l) -> In v (l_temps l) -> u <> v -> (2 * tol < Rabs (u - v))%R) -> asks lib (AskNeutron s T0 tol) = Some (SlotN z i) ->
  exists t, nth_error (l_temps l) i = Some t /\ nearest_to T0 (l_temps l) t.
Proof.
  intros Hs L HT A E. pose proof (asks_neutron lib s z l T0 tol Hs L HT) as P. rewrite E in P. destruct P as (i' & t & X & N & W & _). injection X as <-. exists t. split; [exact N|]. apply (apart_nearest T0 tol); [exact (nth_error_In _ _ N)|exact W|exact A].
Qed.
(** otherwise not: with 300 K and 301 K available and a tolerance of 1 K, a request for 301 K loads the table at 300 K *)
Definition lib_300_301 : @library R := mkLib [] [(mkZaid 1 1, mkList [mkTable (w_ "a") false 300%R; mkTable (w_ "b") false 301%R] [None; None] [300; 301]%R None)] [].
Theorem C55_load_nearest_refuted : exists w, load_STNeutron (fun _ => true) lib_300_301 (w_ "H1") 301%R 1%R (mkWorld 0 []) = w /\
  w = (Ok 0%nat, mkLib [] [(mkZaid 1 1, mkList [mkTable (w_ "a") false 300%R; mkTable (w_ "b") false 301%R] [Some 0%nat; None] [300; 301]%R (Some 0%nat))] [], mkWorld 1 [mkRead (mkTable (w_ "a") false 300%R) None (Some 0%nat)]).
Proof.
  eexists. split; [reflexivity|]. unfold load_STNeutron. assert (symbol_to_zaid (w_ "H1") = Ok (mkZaid 1 1)) as -> by (vm_compute; reflexivity). cbn [lib_300_301 lib_neutron lookup zaid_eq za_Z za_A Z.eqb Pos.eqb andb]. unfold load_list. cbn [l_temps load_loop].
  change (@nltb R NumR) with Rltb. change (@nleb R NumR) with Rleb. change (@nabs R NumR) with Rabs. change (@nsub R NumR) with Rminus. change (@nofZ R NumR) with IZR. destruct (Rltb_spec (Rabs (301 - 300)) (Rabs (301 - 300))) as [Q|_]; [lra|].
  destruct (Rleb_spec (Rabs (301 - 300)) 1) as [_|Q]; [reflexivity|]. rewrite Rabs_right in Q by lra. lra.
Qed.
Example C55_ex : exists t, nearest_temperature lib_300_301 (w_ "H1") 301%R = Ok t /\ nearest_to 301 [300; 301]%R t.
Proof. apply (C55_nearest_partial lib_300_301 (w_ "H1") (mkList [mkTable (w_ "a") false 300%R; mkTable (w_ "b") false 301%R] [None; None] [300; 301]%R None)); [vm_compute; reflexivity|discriminate|]. repeat constructor; cbn; lra. Qed.

(** ** C56. every sequence of requests to a library on which nothing is loaded yet; any pattern [good] of reads that succeed *)
Theorem C56_same_object {T} {N : Num T} good (lib : @library T) n0 reads qs rs lib' w' : fresh lib -> serve_all good qs lib (mkWorld n0 reads) = (rs, lib', w') ->
  forall i j q1 q2 o1 o2 s1 s2, nth_error qs i = Some q1 -> nth_error qs j = Some q2 -> nth_error rs i = Some (Ok o1) -> nth_error rs j = Some (Ok o2) ->
  asks lib q1 = Some s1 -> asks lib q2 = Some s2 -> s1 = s2 <-> o1 = o2.
Proof.
  intros F H i j q1 q2 o1 o2 s1 s2 Q1 Q2 R1 R2 A1 A2. destruct (serve_all_keeps good qs lib (mkWorld n0 reads) rs lib' w' (fresh_ok lib _ F) H) as ((_ & _ & C3 & _) & _ & _ & _ & D).
  destruct (D i q1 o1 Q1 R1) as (s1' & B1 & O1), (D j q2 o2 Q2 R2) as (s2' & B2 & O2). assert (s1' = s1) as -> by congruence. assert (s2' = s2) as -> by congruence. split; [intros ->; congruence|intros ->; eauto].
Qed.
(** once a request for a table has succeeded, every later request for it returns the same object and reads nothing *)
Theorem C56_cached {T} {N : Num T} good (lib : @library T) n0 reads qs rs lib' w' : fresh lib -> serve_all good qs lib (mkWorld n0 reads) = (rs, lib', w') ->
  forall i q1 o s q, nth_error qs i = Some q1 -> nth_error rs i = Some (Ok o) -> asks lib q1 = Some s -> asks lib q = Some s -> serve good q lib' w' = (Ok o, lib', w').
Proof.
  intros F H i q1 o s q Q1 R1 A1 A. destruct (serve_all_keeps good qs lib (mkWorld n0 reads) rs lib' w' (fresh_ok lib _ F) H) as (C & A' & _ & _ & D).
  destruct (D i q1 o Q1 R1) as (s' & B & O). assert (s' = s) as -> by congruence. apply serve_again with (s := s); [exact C|rewrite A'; exact A|exact O].
Qed.
(** which table a request means does not depend on what has been loaded; a request that means none throws and changes nothing; a request reads at
    most one file, that of its table, and none if it is loaded; a failed read leaves the library as it was; an object, once made, is kept *)
Theorem C56_step {T} {N : Num T} good (lib : @library T) n0 reads qs rs lib1 w1 : fresh lib -> serve_all good qs lib (mkWorld n0 reads) = (rs, lib1, w1) ->
  forall q r lib2 w2, serve good q lib1 w1 = (r, lib2, w2) -> asks lib1 q = asks lib q /\
  match asks lib q with
  | None => r = Throw /\ lib2 = lib1 /\ w2 = w1
  | Some s => (forall s' o, object_at lib1 s' = Some o -> object_at lib2 s' = Some o) /\
      ((exists o, object_at lib1 s = Some o /\ r = Ok o /\ lib2 = lib1 /\ w2 = w1) \/
       (object_at lib1 s = None /\ exists tb base l, list_of lib1 s = Some l /\ nth_error (l_tables l) (index_of s) = Some tb /\
          ((r = Ok (w_next w1) /\ object_at lib2 s = Some (w_next w1) /\ w2 = mkWorld (S (w_next w1)) (w_reads w1 ++ [mkRead tb base (Some (w_next w1))])) \/
           (r = Throw /\ lib2 = lib1 /\ w2 = mkWorld (w_next w1) (w_reads w1 ++ [mkRead tb base None])))))
  end.
Proof.
  intros F H q r lib2 w2 E. destruct (serve_all_keeps good qs lib (mkWorld n0 reads) rs lib1 w1 (fresh_ok lib _ F) H) as (C & A' & _). split; [apply A'|]. rewrite <- A'. destruct (asks lib1 q) as [s|] eqn:A.
  - destruct (serve_step good lib1 w1 q s r lib2 w2 C A E) as (_ & _ & K & D). split; [exact K|]. destruct D as [D|(O & tb & base & (l & L & X & _) & D)]; [left; exact D|right]. split; [exact O|]. exists tb, base, l. auto.
  - rewrite (serve_none good lib1 q w1 A) in E. injection E as <- <- <-. auto.
Qed.
(** the data shared between temperatures: a table read for a nuclide takes them from an object of the same nuclide, if there is one *)
Theorem C56_shared {T} {N : Num T} good (lib : @library T) n0 reads qs rs lib1 w1 : fresh lib -> serve_all good qs lib (mkWorld n0 reads) = (rs, lib1, w1) ->
  forall q z i r lib2 w2 rd, asks lib q = Some (SlotN z i) -> serve good q lib1 w1 = (r, lib2, w2) -> w_reads w2 = w_reads w1 ++ [rd] ->
  match r_base rd with Some f => exists j, object_at lib1 (SlotN z j) = Some f | None => forall j, object_at lib1 (SlotN z j) = None end.
Proof.
  intros F H q z i r lib2 w2 rd A E W. destruct (serve_all_keeps good qs lib (mkWorld n0 reads) rs lib1 w1 (fresh_ok lib _ F) H) as (C & A' & _). rewrite <- A' in A. destruct (serve_step good lib1 w1 q _ r lib2 w2 C A E) as (_ & _ & _ & D). destruct C as (_ & _ & _ & C4).
  destruct D as [(o & _ & _ & _ & ->)|(_ & tb & base & (l & L & _ & <-) & D)].
  - exfalso. apply (f_equal (@length _)) in W. rewrite app_length in W. cbn in W. lia.
  - specialize (C4 z i l L). assert (rd = mkRead tb (l_first l) (r_made rd)) as ->; [|exact C4]. destruct D as [(_ & _ & ->)|(_ & _ & ->)]; cbn [w_reads] in W; apply app_inj_tail in W as [_ <-]; reflexivity.
Qed.
Lemma fresh_300_301 : fresh lib_300_301.
Proof.
  intros [z i|n i] l L; cbn in L; [|discriminate]. destruct (zaid_eq z (mkZaid 1 1)); [|discriminate]. injection L as <-. split; [split; reflexivity|]. split; [|reflexivity]. intros [|[|[|k]]] o; cbn; congruence.
Qed.
Example C56_ex : fresh lib_300_301 /\ fresh (lib_ex 600 300) /\ asks lib_300_301 (AskNeutron (w_ "H1") 300%R 1%R) = Some (SlotN (mkZaid 1 1) 0).
Proof.
  split; [exact fresh_300_301|]. split; [apply (serpent_true (stod_ex 600 300) stoul_ex two_rows), serpent_newline_ex; lra|]. unfold asks. assert (symbol_to_zaid (w_ "H1") = Ok (mkZaid 1 1)) as -> by (vm_compute; reflexivity). cbn [lib_300_301 lib_neutron lookup zaid_eq za_Z za_A Z.eqb Pos.eqb andb]. cbn [l_temps load_loop]. change (@nltb R NumR) with Rltb. change (@nleb R NumR) with Rleb. change (@nabs R NumR) with Rabs. change (@nsub R NumR) with Rminus. destruct (Rltb_spec (Rabs (300 - 300)) (Rabs (300 - 300))) as [Q|_]; [lra|].
  destruct (Rleb_spec (Rabs (300 - 300)) 1) as [_|Q]; [reflexivity|]. rewrite Rminus_diag_eq, Rabs_R0 in Q by reflexivity. lra.
Qed.

(** ** C67. listed symbols: a symbol listed for the data of a ZAID leads back to them *)
Theorem C67_listed_symbol_partial Z0 A s : 0 <= Z0 < 256 -> A <= 300 \/ 400 <= A <= 600 -> 0 <= A -> zaid_symbol (mkZaid Z0 A) = Ok s -> symbol_to_zaid s = Ok (mkZaid Z0 A).
Proof. exact (zaid_symbol_back Z0 A s). Qed.
(** symbols in general: a nuclide or an element symbol, possibly in white space *)
Theorem C67_symbol_meaning s z : symbol_to_zaid s = Ok z -> (exists n, nuclide_of_string s = Ok n /\ z = nuclide_zaid n) \/ (exists Z0 w1 w2, 1 <= Z0 <= 118 /\ blanks w1 /\ blanks w2 /\ s = w1 ++ std_symbol Z0 ++ w2 /\ z = mkZaid Z0 0).
Proof.
  intros H. destruct (symbol_to_zaid_inv s z H) as [D|(Z0 & w1 & w2 & R0 & W1 & W2 & E & D)]; [left; exact D|right]. exists Z0, w1, w2. rewrite !blanks_all, <- symbol_std by exact R0. auto.
Qed.
(** the ZAID 1,1001 is listed under a symbol that is refused *)
Theorem C67_listed_symbol_refuted : zaid_symbol (mkZaid 1 1001) = Ok (w_ "H1m7") /\ symbol_to_zaid (w_ "H1m7") = Throw.
Proof. split; vm_compute; reflexivity. Qed.
(** thermal scattering names of one to six letters, digits, '_' or '-' are found under their own name, also in white space *)
Theorem C67_tsl_name_partial w1 n w2 : blanks w1 -> blanks w2 -> (forall c, In c n -> is_tsl_char c = true) -> (1 <= length n <= 6)%nat -> tsl_name (w1 ++ n ++ w2) = Some n.
Proof.
  intros W1 W2 C L. rewrite blanks_all in W1, W2. apply tsl_name_spec; [exact W1|exact C|exact L|]. right. apply space_stops; [exact W2|]. intros c H. apply tsl_char_not, H.
Qed.
(** longer names are cut after six characters: the data of a longer name cannot be loaded *)
Theorem C67_tsl_name_refuted good (l : stlist) w T0 tol : let lib := mkLib [] [] [(w_ "graphite", l)] in load_STTSL (T := R) good lib (w_ "graphite") T0 tol w = (Throw, lib, w) /\ temperatures lib (w_ "graphite") = Throw.
Proof. cbv zeta. split; reflexivity. Qed.
Example C67_ex : zaid_symbol (mkZaid 95 642) = Ok (w_ "Am242m1") /\ symbol_to_zaid (w_ "Am242m1") = Ok (mkZaid 95 642) /\ tsl_name (w_ "lwtr") = Some (w_ "lwtr").
Proof. repeat split; vm_compute; reflexivity. Qed.

(** ** C68. Serpent directory files without white space at the end: each new row is registered once, under its ZAID or name; the lists are sorted by
    temperature and nothing is loaded *)
Theorem C68_neutron_partial stod stoul_of rows lib Z0 A : rows <> [] -> SerpentLibrary stod stoul_of (words rows) false = Ok lib -> 0 <= A < 1000 ->
  (forall r, In r rows -> starts "1"%char (c_type r) -> exists n, stoul_of (c_ZA r) = Ok n /\ 0 <= n < 256000) ->
  exists k ts, new_rows [] rows k /\ Forall2 (describes stod) (filter (neutron_row stoul_of Z0 A) k) ts /\ Permutation (tables_n lib (mkZaid Z0 A)) ts.
Proof. exact (serpent_neutron stod stoul_of rows lib Z0 A). Qed.
Theorem C68_tsl_partial stod stoul_of rows lib n : rows <> [] -> SerpentLibrary stod stoul_of (words rows) false = Ok lib ->
  exists k ts, new_rows [] rows k /\ Forall2 (describes stod) (filter (fun r => negb (first_is "1"%char (c_type r)) && str_eqb (regex_remove rx_ext3 (c_zaid r)) n) k) ts /\ Permutation (tables_t lib n) ts.
Proof. intros NE H. destruct (serpent_false stod stoul_of rows lib NE H) as (_ & _ & k & K & _ & Kt). destruct (Kt n) as (ts & D & P). exists k, ts. auto. Qed.
Theorem C68_extension base a b c : (forall x, In x base -> x <> "."%char) -> is_word a = true -> is_word b = true -> is_word c = true -> regex_remove rx_ext3 (base ++ ["."%char; a; b; c]) = base.
Proof.
  intros B. apply strip_ext. intros x I. specialize (B x I). destruct (code x =? 46) eqn:Q; [|reflexivity]. exfalso. apply B, code_inj. change (code ".") with 46. lia.
Qed.
Theorem C68_sorted_fresh stod stoul_of rows trailing lib : (rows <> [] \/ trailing = true) -> SerpentLibrary stod stoul_of (words rows) trailing = Ok lib -> fresh lib /\ forall s l, list_of lib s = Some l -> l_temps l = map t_temp (l_tables l) /\ StronglySorted Rle (l_temps l).
Proof. intros C H. destruct trailing; [exact (serpent_true stod stoul_of rows lib H)|]. destruct C as [C|C]; [|discriminate]. destruct (serpent_false stod stoul_of rows lib C H) as (F & S & _). split; [exact F|exact S]. Qed.
(** a file that ends with a newline: the last table is registered twice *)
Theorem C68_newline_refuted : exists lib, SerpentLibrary (stod_ex 600 300) stoul_ex (words two_rows) true = Ok lib /\ length (tables_n lib (mkZaid 92 235)) = 3%nat /\ length two_rows = 2%nat.
Proof. exists (lib_ex 600 300). split; [apply serpent_newline_ex; lra|]. split; reflexivity. Qed.
Example C68_ex : exists lib, SerpentLibrary (stod_ex 600 300) stoul_ex (words two_rows) false = Ok lib /\ length (tables_n lib (mkZaid 92 235)) = 2%nat.
Proof.
  pose (l0 := @mkList R [mkTable (w_ "u6.ace") false 600%R; mkTable (w_ "u3.ace") false 300%R] [None; None] [] None).
  exists (mkLib [(mkZaid 92 235, 233%R)] [(mkZaid 92 235, finish_list l0)] []). split.
  - unfold SerpentLibrary. assert (rows_loop (stod_ex 600 300) stoul_ex (S (S (length (words two_rows)))) no_vars (mkStream (words two_rows) false false) empty_library = Ok (mkLib [(mkZaid 92 235, 233%R)] [(mkZaid 92 235, l0)] [])) as -> by (unfold l0; cbv -[IZR]; reflexivity).
    cbn [bind]. unfold finish_library. cbn [lib_awr lib_neutron lib_tsl map fst snd]. assert (H : list_STNeutron (mkLib [(mkZaid 92 235, 233%R)] [(mkZaid 92 235, finish_list l0)] []) = Ok [w_ "U235"]); [|rewrite H; reflexivity].
    unfold list_STNeutron. cbn [map fst lib_neutron fold_right insert_zaid mapR]. assert (zaid_symbol (mkZaid 92 235) = Ok (w_ "U235")) as -> by (vm_compute; reflexivity). reflexivity.
  - unfold tables_n. cbn [lib_neutron lookup zaid_eq za_Z za_A Z.eqb Pos.eqb andb]. unfold finish_list. cbn [l_tables]. rewrite (Permutation_length (sort_perm _)). reflexivity.
Qed.

(** ** C69. MCNP directories (logical lines): each line for continuous neutron or thermal data is registered once; every line has 7 to 11 words or is
    empty, otherwise an exception; sorted, nothing loaded *)
Theorem C69_mcnp stod stoul_of to_kelvin awrs lines lib : MCNPLibrary stod stoul_of to_kelvin awrs lines = Ok lib ->
  fresh lib /\ (forall s l, list_of lib s = Some l -> l_temps l = map t_temp (l_tables l) /\ StronglySorted Rle (l_temps l)) /\
  (forall ws, In ws lines -> ws = [] \/ (7 <= length ws <= 11)%nat) /\
  (forall z, exists ts, Forall2 (line_describes stod to_kelvin) (filter (line_is_n stoul_of z) lines) ts /\ Permutation (tables_n lib z) ts) /\
  (forall n, exists ts, Forall2 (line_describes stod to_kelvin) (filter (line_is_t n) lines) ts /\ Permutation (tables_t lib n) ts).
Proof. exact (mcnp_library stod stoul_of to_kelvin awrs lines lib). Qed.
Definition mcnp_line : list str := [w_ "92235.80c"; w_ "233.0248"; w_ "u"; w_ "0"; w_ "1"; w_ "1"; w_ "7"; w_ "0"; w_ "0"; w_ "300"].
Example C69_ex : exists lib, MCNPLibrary (stod_ex 600 300) stoul_ex (fun x => x) [] [mcnp_line; [w_ "1001.80p"; []; []; []; []; []; []]] = Ok lib /\ tables_n lib (mkZaid 92 235) = [mkTable (w_ "u") false 300%R].
Proof.
  exists (mkLib [] [(mkZaid 92 235, finish_list (mkList [mkTable (w_ "u") false 300%R] [None] [] None))] []). split; [|reflexivity]. unfold MCNPLibrary. assert (mcnp_rows (stod_ex 600 300) stoul_ex (fun x => x) [mcnp_line; [w_ "1001.80p"; []; []; []; []; []; []]] (mkLib [] [] []) = Ok (mkLib [] [(mkZaid 92 235, mkList [mkTable (w_ "u") false 300%R] [None] [] None)] [])) as -> by (cbv -[IZR]; reflexivity).
  cbn [bind]. unfold finish_library. cbn [lib_awr lib_neutron lib_tsl map fst snd]. assert (list_STNeutron (mkLib [] [(mkZaid 92 235, finish_list (mkList [mkTable (w_ "u") false 300%R] [None] [] None))] []) = Ok [w_ "U235"]) as -> by (vm_compute; reflexivity). reflexivity.
Qed.

Print Assumptions C55_nearest_available.
Print Assumptions C55_nearest_partial.
Print Assumptions C55_nearest_refuted.
Print Assumptions C55_load_neutron_partial.
Print Assumptions C55_load_tsl_partial.
Print Assumptions C55_load_nearest_partial.
Print Assumptions C55_load_nearest_refuted.
Print Assumptions C56_same_object.
Print Assumptions C56_cached.
Print Assumptions C56_step.
Print Assumptions C56_shared.
Print Assumptions C67_listed_symbol_partial.
Print Assumptions C67_symbol_meaning.
Print Assumptions C67_listed_symbol_refuted.
Print Assumptions C67_tsl_name_partial.
Print Assumptions C67_tsl_name_refuted.
Print Assumptions C68_neutron_partial.
Print Assumptions C68_tsl_partial.
Print Assumptions C68_extension.
Print Assumptions C68_sorted_fresh.
Print Assumptions C68_newline_refuted.
Print Assumptions C69_mcnp.
