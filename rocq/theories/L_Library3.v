(** * Library: statements about the requests, and a file that ends with a newline *)
From Verif Require Import Base NumR L_Search M_Grid M_Ident L_Ident L_Ident2 S_Ident L_Ident3 M_Library S_Library L_Library L_Library2.
From Coq Require Import Reals Lra.
From Coq Require Import String Ascii List Sorted Permutation. Import ListNotations.
From Coq Require Import ZifyBool ZifyNat.
Local Open Scope list_scope.
Local Open Scope Z_scope.

Lemma asks_neutron (lib : @library R) s z l (T0 tol : R) : symbol_to_zaid s = Ok z -> lookup zaid_eq z (lib_neutron lib) = Some l -> (tol <= IZR (10 ^ 300))%R ->
  match asks lib (AskNeutron s T0 tol) with
  | Some sl => exists i t, sl = SlotN z i /\ nth_error (l_temps l) i = Some t /\ within tol T0 t /\ forall j u, (j < i)%nat -> nth_error (l_temps l) j = Some u -> ~ within tol T0 u
  | None => forall t, In t (l_temps l) -> ~ within tol T0 t
  end.
Proof.
  intros Hs L HT. cbn. rewrite Hs, L. pose proof (load_loop_spec T0 tol HT (l_temps l) 0) as P. destruct (load_loop T0 tol (l_temps l) 0) as [i|].
  - destruct P as (k & t & -> & E & C & M). exists k, t. split; [reflexivity|]. split; [exact E|]. split; [exact C|]. intros j u Hj Eu X. specialize (M j u Hj Eu). unfold within in X. lra.
  - intros t I X. specialize (P t I). unfold within in X. lra.
Qed.
Lemma asks_tsl (lib : @library R) s n l (T0 tol : R) : tsl_name s = Some n -> lookup str_eqb n (lib_tsl lib) = Some l -> (tol <= IZR (10 ^ 300))%R ->
  match asks lib (AskTSL s T0 tol) with
  | Some sl => exists i t, sl = SlotT n i /\ nth_error (l_temps l) i = Some t /\ within tol T0 t /\ forall j u, (j < i)%nat -> nth_error (l_temps l) j = Some u -> ~ within tol T0 u
  | None => forall t, In t (l_temps l) -> ~ within tol T0 t
  end.
Proof.
  intros Hs L HT. cbn. rewrite Hs, L. pose proof (load_loop_spec T0 tol HT (l_temps l) 0) as P. destruct (load_loop T0 tol (l_temps l) 0) as [i|].
  - destruct P as (k & t & -> & E & C & M). exists k, t. split; [reflexivity|]. split; [exact E|]. split; [exact C|]. intros j u Hj Eu X. specialize (M j u Hj Eu). unfold within in X. lra.
  - intros t I X. specialize (P t I). unfold within in X. lra.
Qed.
(** temperatures further apart than twice the tolerance: the one within it is the nearest *)
Lemma apart_nearest (T0 tol t : R) temps : In t temps -> within tol T0 t -> (forall u v, In u temps -> In v temps -> u <> v -> (2 * tol < Rabs (u - v))%R) -> nearest_to T0 temps t.
Proof.
  intros I W A. split; [exact I|]. intros u Iu. destruct (Req_dec t u) as [<-|N]; [lra|]. specialize (A t u I Iu N). unfold within in W. unfold Rabs in *. destruct (Rcase_abs (T0 - t)), (Rcase_abs (T0 - u)), (Rcase_abs (t - u)); lra.
Qed.
(** after a successful load, the same object without reading *)
Lemma serve_again {T} {N : Num T} good (lib : @library T) w q s o : cache_ok lib w -> asks lib q = Some s -> object_at lib s = Some o -> serve good q lib w = (Ok o, lib, w).
Proof.
  intros C A O. destruct (serve good q lib w) as [[r lib'] w'] eqn:E. destruct (serve_step good lib w q s r lib' w' C A E) as (_ & _ & _ & [(o' & O' & -> & -> & ->)|(O' & _)]); [congruence|congruence].
Qed.
(** the identifier without its extension *)
Lemma strip_ext base a b c : all (fun x => negb (code x =? 46)) base -> is_word a = true -> is_word b = true -> is_word c = true -> regex_remove rx_ext3 (base ++ "."%char :: a :: b :: c :: []) = base.
Proof.
  intros B A1 A2 A3. unfold regex_remove. assert (Sk : skips rx_ext3 (fun x => negb (code x =? 46))) by apply skip_first. rewrite (remove_copy rx_ext3 _ Sk base) by (try exact B; rewrite app_length; lia).
  rewrite app_length. cbn [length]. replace (S (length base + 4) - length base)%nat with 5%nat by lia. cbn [remove_all]. unfold rx_ext3, rx_seq, rx_chr. cbn. rewrite A1. cbn. rewrite A2. cbn. rewrite A3. cbn. rewrite app_nil_r. reflexivity.
Qed.
Lemma zaid_number_iff n Z0 A : 0 <= n < 256000 -> 0 <= A < 1000 -> zaid_eq (zaid_of_number (wrap32 n)) (mkZaid Z0 A) = (n =? 1000 * Z0 + A).
Proof.
  intros Hn HA. unfold zaid_of_number. assert (wrap32 n = n) as -> by (unfold wrap32; apply Z.mod_small; lia). rewrite (Z.mod_small (n / 1000)) by lia. assert (wrap32 (n - n / 1000 * 1000) = n mod 1000) as -> by (unfold wrap32; rewrite Z.mod_small; lia).
  unfold zaid_eq. cbn [za_Z za_A]. lia.
Qed.
Lemma new_rows_sub seen rows k : new_rows seen rows k -> forall r, In r k -> In r rows.
Proof. induction 1; intros x I; [exact I|right; auto|right; auto|destruct I as [<-|I]; [left; reflexivity|right; auto]]. Qed.
Lemma filter_same {A} (f g : A -> bool) l : (forall x, In x l -> f x = g x) -> filter f l = filter g l.
Proof. induction l as [|x l IH]; cbn; intros H; [reflexivity|]. rewrite (H x) by auto. rewrite IH by auto. reflexivity. Qed.
Lemma serpent_neutron stod stoul_of rows lib Z0 A : rows <> [] -> SerpentLibrary stod stoul_of (words rows) false = Ok lib -> 0 <= A < 1000 ->
  (forall r, In r rows -> starts "1"%char (c_type r) -> exists n, stoul_of (c_ZA r) = Ok n /\ 0 <= n < 256000) ->
  exists k ts, new_rows [] rows k /\ Forall2 (describes stod) (filter (neutron_row stoul_of Z0 A) k) ts /\ Permutation (tables_n lib (mkZaid Z0 A)) ts.
Proof.
  intros NE H HA HR. destruct (serpent_false stod stoul_of rows lib NE H) as (_ & _ & k & K & Kn & _). destruct (Kn (mkZaid Z0 A)) as (ts & D & P). exists k, ts. split; [exact K|]. split; [|exact P].
  assert (EF : filter (neutron_row stoul_of Z0 A) k = filter (row_is_n stoul_of (mkZaid Z0 A)) k); [|rewrite EF; exact D]. apply filter_same. intros r I. unfold neutron_row, row_is_n, first_is. destruct (c_type r) as [|x y] eqn:QT; [reflexivity|]. destruct (Ascii.eqb x "1"%char) eqn:Q1; [|reflexivity]. cbn [andb].
  destruct (HR r (new_rows_sub _ _ _ K r I) ltac:(apply Ascii.eqb_eq in Q1; rewrite QT, Q1; eexists; reflexivity)) as (n & -> & Hn). symmetry. apply zaid_number_iff; assumption.
Qed.

(** ** a file that ends with a newline: the last table is registered twice *)
Definition w_ (s : string) : str := list_ascii_of_string s.
Definition two_rows : list row :=
  [mkRow (w_ "U-235.06c") (w_ "92235.06c") (w_ "1") (w_ "92235") (w_ "0") (w_ "233") (w_ "600") (w_ "0") (w_ "u6.ace");
   mkRow (w_ "U-235.03c") (w_ "92235.03c") (w_ "1") (w_ "92235") (w_ "0") (w_ "233") (w_ "300") (w_ "0") (w_ "u3.ace")].
Definition stod_ex (a b : R) (s : str) : res R := if str_eqb s (w_ "600") then Ok a else if str_eqb s (w_ "300") then Ok b else Ok 233%R.
Definition stoul_ex (s : str) : res Z := Ok (stoul s).
Definition raw_ex (a b : R) : library := mkLib [(mkZaid 92 235, 233%R)]
  [(mkZaid 92 235, mkList [mkTable (w_ "u6.ace") false a; mkTable (w_ "u3.ace") false b; mkTable (w_ "u3.ace") false b] [None; None; None] [] None)] [].
Definition lib_ex (a b : R) : library := mkLib [(mkZaid 92 235, 233%R)]
  [(mkZaid 92 235, mkList [mkTable (w_ "u3.ace") false b; mkTable (w_ "u3.ace") false b; mkTable (w_ "u6.ace") false a] [None; None; None] [b; b; a] None)] [].
Lemma loop_ex a b : rows_loop (stod_ex a b) stoul_ex (S (S (length (words two_rows)))) no_vars (mkStream (words two_rows) true false) empty_library = Ok (raw_ex a b).
Proof. cbv -[IZR]. reflexivity. Qed.
Lemma finish_ex a b : (b < a)%R -> finish_library (raw_ex a b) = lib_ex a b.
Proof.
  intros H. unfold finish_library, raw_ex, lib_ex. cbn [lib_awr lib_neutron lib_tsl map fst snd]. unfold finish_list, sort_tables. cbn [l_tables l_loaded l_first fold_right insert_table t_temp]. change (@nltb R NumR) with Rltb.
  destruct (Rltb_spec b b) as [Q|_]; [lra|]. cbn [insert_table t_temp]. change (@nltb R NumR) with Rltb. destruct (Rltb_spec b a) as [_|Q]; [|lra]. reflexivity.
Qed.
Lemma serpent_newline_ex a b : (b < a)%R -> SerpentLibrary (stod_ex a b) stoul_ex (words two_rows) true = Ok (lib_ex a b).
Proof. intros H. unfold SerpentLibrary. rewrite loop_ex. cbn [bind]. rewrite (finish_ex a b H). assert (list_STNeutron (lib_ex a b) = Ok [w_ "U235"]) as -> by (vm_compute; reflexivity). reflexivity. Qed.
