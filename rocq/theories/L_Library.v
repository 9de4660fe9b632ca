(** * Library: temperature selection, cache, symbols *)
From Verif Require Import Base NumR L_Search M_Grid M_Ident L_Ident L_Ident2 S_Ident L_Ident3 M_Library.
From Coq Require Import Reals Lra.
From Coq Require Import String Ascii List Sorted Permutation. Import ListNotations.
From Coq Require Import ZifyBool ZifyNat.
Local Open Scope list_scope.
Local Open Scope Z_scope.

(** ** temperatures *)
Definition nearestR (T0 : R) (temps : list R) (t : R) : Prop := In t temps /\ forall u, In u temps -> (Rabs (T0 - t) <= Rabs (T0 - u))%R.
Lemma closer (T0 t t' u : R) : (t < t')%R -> (t' <= u)%R -> (Rabs (T0 - t) <= Rabs (T0 - t'))%R -> (Rabs (T0 - t) <= Rabs (T0 - u))%R.
Proof. intros H1 H2. unfold Rabs. destruct (Rcase_abs (T0 - t)), (Rcase_abs (T0 - t')), (Rcase_abs (T0 - u)); lra. Qed.
Lemma nearest_loop_strict (T0 : R) : forall l b, StronglySorted Rlt l -> l <> [] -> b = last l 0%R -> exists t, nearest_loop T0 l (Ok b) = Ok t /\ nearestR T0 l t.
Proof.
  induction l as [|t r IH]; intros b S NE B; [congruence|]. inversion S as [|? ? Sr F]; subst. destruct r as [|t' r].
  - exists t. cbn [nearest_loop]. split; [destruct (nltb _ _); reflexivity|]. split; [left; reflexivity|]. intros u [<-|[]]. lra.
  - cbn [nearest_loop]. change (@nltb R NumR) with Rltb. change (@nabs R NumR) with Rabs. change (@nsub R NumR) with Rminus. destruct (Rltb_spec (Rabs (T0 - t')) (Rabs (T0 - t))) as [Q|Q].
    + destruct (IH (last (t' :: r) 0%R) Sr ltac:(discriminate) eq_refl) as (t0 & E & I & M). exists t0. split; [exact E|]. split; [right; exact I|]. intros u [<-|Iu]; [specialize (M t' (or_introl eq_refl)); lra|auto].
    + exists t. split; [reflexivity|]. split; [left; reflexivity|]. intros u [<-|Iu]; [lra|]. inversion F as [|? ? Ht Fr]; subst. apply (closer T0 t t' u Ht); [|lra]. destruct Iu as [<-|Iu]; [lra|]. inversion Sr as [|? ? _ F']; subst. rewrite Forall_forall in F'. specialize (F' u Iu). lra.
Qed.
Lemma nth_error_last {A} (l : list A) d : l <> [] -> nth_error l (length l - 1) = Some (last l d).
Proof.
  induction l as [|x l IH]; intros H; [congruence|]. destruct l as [|y l]; [reflexivity|]. replace (length (x :: y :: l) - 1)%nat with (S (length (y :: l) - 1)) by (cbn; lia). cbn [nth_error]. rewrite IH by discriminate. reflexivity.
Qed.
Lemma backR_last {A} (l : list A) d : l <> [] -> backR l = Ok (last l d).
Proof.
  intros H. unfold backR, atZ, sizeZ. assert (1 <= length l)%nat by (destruct l; [congruence|cbn; lia]). destruct (0 <=? Z.of_nat (length l) - 1) eqn:Q; [|lia]. replace (Z.to_nat (Z.of_nat (length l) - 1)) with (length l - 1)%nat by lia. rewrite (nth_error_last l d H). reflexivity.
Qed.
Lemma nearest_strict (T0 : R) temps : StronglySorted Rlt temps -> temps <> [] -> exists t, nearest_of T0 temps = Ok t /\ nearestR T0 temps t.
Proof. intros S H. unfold nearest_of. rewrite (backR_last temps 0%R H). apply nearest_loop_strict; auto. Qed.
(** always one of the temperatures *)
Lemma nearest_in (T0 : R) temps : temps <> [] -> exists t, nearest_of T0 temps = Ok t /\ In t temps.
Proof.
  intros H. unfold nearest_of. rewrite (backR_last temps 0%R H). assert (L : In (last temps 0%R) temps) by (apply nth_error_In with (n := (length temps - 1)%nat), nth_error_last, H). revert L. generalize (last temps 0%R) as b.
  assert (G : forall l b, exists t, nearest_loop T0 l (Ok b) = Ok t /\ (t = b \/ In t l)).
  { induction l as [|t r IH]; intros b; cbn [nearest_loop]; [eauto|]. destruct (nltb _ _); [|exists t; cbn; auto]. destruct (IH b) as (t0 & E & D). exists t0. cbn. destruct D; auto. }
  intros b L. destruct (G temps b) as (t & E & [->|I]); eauto.
Qed.
(** the load loop takes the first temperature within the tolerance *)
Lemma load_loop_spec (T0 tol : R) : (tol <= IZR (10 ^ 300))%R -> forall l i,
  match load_loop T0 tol l i with
  | Some j => exists k t, j = (i + k)%nat /\ nth_error l k = Some t /\ (Rabs (T0 - t) <= tol)%R /\ forall k' u, (k' < k)%nat -> nth_error l k' = Some u -> (tol < Rabs (T0 - u))%R
  | None => forall t, In t l -> (tol < Rabs (T0 - t))%R
  end.
Proof.
  intros HT. induction l as [|t r IH]; intros i; cbn [load_loop]; [intros t []|]. change (@nltb R NumR) with Rltb. change (@nleb R NumR) with Rleb. change (@nabs R NumR) with Rabs. change (@nsub R NumR) with Rminus. change (@nofZ R NumR) with IZR.
  assert (Skip : (tol < Rabs (T0 - t))%R -> match load_loop T0 tol r (S i) with
    | Some j => exists k t0, j = (i + k)%nat /\ nth_error (t :: r) k = Some t0 /\ (Rabs (T0 - t0) <= tol)%R /\ forall k' u, (k' < k)%nat -> nth_error (t :: r) k' = Some u -> (tol < Rabs (T0 - u))%R
    | None => forall t0, In t0 (t :: r) -> (tol < Rabs (T0 - t0))%R end).
  { intros HQ. specialize (IH (S i)). destruct (load_loop T0 tol r (S i)) as [j|].
    - destruct IH as (k & u & -> & E & C & M). exists (S k), u. split; [lia|]. split; [exact E|]. split; [exact C|]. intros [|k'] v Hk Ev; [cbn in Ev; injection Ev as <-; exact HQ|]. apply (M k' v); [lia|exact Ev].
    - intros u [<-|I]; auto. }
  destruct (Rltb_spec (match r with [] => IZR (10 ^ 300) | _ :: _ => Rabs (T0 - t) end) (Rabs (T0 - t))) as [Q|Q].
  - apply Skip. destruct r; lra.
  - destruct (Rleb_spec (Rabs (T0 - t)) tol) as [C|C]; [|apply Skip; lra]. exists 0%nat, t. split; [lia|]. split; [reflexivity|]. split; [exact C|]. intros k' u Hk. lia.
Qed.

(** ** association lists *)
Lemma str_eqb_refl s : str_eqb s s = true.
Proof. induction s as [|x s IH]; [reflexivity|]. cbn. rewrite Ascii.eqb_refl, IH. reflexivity. Qed.
Lemma str_eqb_iff a b : str_eqb a b = true <-> a = b.
Proof. split; [apply str_eqb_eq|intros ->; apply str_eqb_refl]. Qed.
Lemma zaid_eqb_iff a b : zaid_eq a b = true <-> a = b.
Proof. apply (proj1 zaid_order a b I I). Qed.
Section Assoc.
  Context {K V : Type} (eqb : K -> K -> bool) (E : forall a b, eqb a b = true <-> a = b).
  Lemma eqb_no a b : a <> b -> eqb a b = false.
  Proof. intros H. destruct (eqb a b) eqn:Q; [|reflexivity]. apply E in Q. congruence. Qed.
  Lemma eqb_yes a : eqb a a = true. Proof. apply E. reflexivity. Qed.
  Lemma lookup_assign (m : list (K * V)) k v k' : lookup eqb k' (assign eqb k v m) = if eqb k k' then Some v else lookup eqb k' m.
  Proof.
    induction m as [|[a b] m IH]; cbn.
    - destruct (eqb k k') eqn:Q; [apply E in Q as ->; rewrite eqb_yes; reflexivity|]. destruct (eqb k' k) eqn:Q'; [apply E in Q' as ->; rewrite eqb_yes in Q; discriminate|reflexivity].
    - destruct (eqb k a) eqn:Qa.
      + apply E in Qa as <-. cbn. destruct (eqb k' k) eqn:Q'; [apply E in Q' as ->; rewrite eqb_yes; reflexivity|]. destruct (eqb k k') eqn:Q; [apply E in Q as ->; rewrite eqb_yes in Q'; discriminate|reflexivity].
      + cbn. destruct (eqb k' a) eqn:Q'; [apply E in Q' as ->; rewrite Qa; reflexivity|]. exact IH.
  Qed.
  Lemma assign_same (m : list (K * V)) k v : lookup eqb k m = Some v -> assign eqb k v m = m.
  Proof. induction m as [|[a b] m IH]; cbn; [discriminate|]. destruct (eqb k a); [intros H; injection H as ->; reflexivity|]. intros H. rewrite IH by exact H. reflexivity. Qed.
  Lemma lookup_in (m : list (K * V)) k v : lookup eqb k m = Some v -> In (k, v) m.
  Proof. induction m as [|[a b] m IH]; cbn; [discriminate|]. destruct (eqb k a) eqn:Q; [apply E in Q as ->; intros H; injection H as ->; auto|auto]. Qed.
End Assoc.

(** ** the cache *)
Section Cache.
  Context {T : Type} {N : Num T} (good : nat -> bool).
  Notation library := (@library T). Notation stlist := (@stlist T). Notation world := (@world T). Notation request := (@request T).
  (** a slot: one table of the library *)
  Inductive slot := SlotN (z : zaid) (i : nat) | SlotT (n : str) (i : nat).
  Definition list_of (lib : library) (s : slot) : option stlist :=
    match s with SlotN z _ => lookup zaid_eq z (lib_neutron lib) | SlotT n _ => lookup str_eqb n (lib_tsl lib) end.
  Definition index_of (s : slot) : nat := match s with SlotN _ i => i | SlotT _ i => i end.
  Definition at_slot (lib : library) (s : slot) (i : nat) : slot := match s with SlotN z _ => SlotN z i | SlotT n _ => SlotT n i end.
  Definition object_at (lib : library) (s : slot) : option nat :=
    match list_of lib s with Some l => match nth_error (l_loaded l) (index_of s) with Some o => o | None => None end | None => None end.
  (** the table a request asks for *)
  Definition asks (lib : library) (q : request) : option slot :=
    match q with
    | AskNeutron s t d =>
      match symbol_to_zaid s with
      | Ok z => match lookup zaid_eq z (lib_neutron lib) with
                | Some l => match load_loop t d (l_temps l) 0 with Some i => Some (SlotN z i) | None => None end
                | None => None end
      | _ => None end
    | AskTSL s t d =>
      match tsl_name s with
      | Some n => match lookup str_eqb n (lib_tsl lib) with
                  | Some l => match load_loop t d (l_temps l) 0 with Some i => Some (SlotT n i) | None => None end
                  | None => None end
      | _ => None end
    end.
  Definition neutron_slot (s : slot) : bool := match s with SlotN _ _ => true | SlotT _ _ => false end.
  Definition shaped (l : stlist) : Prop := length (l_loaded l) = length (l_temps l) /\ length (l_tables l) = length (l_temps l).
  Definition put (lib : library) (s : slot) (l : stlist) : library :=
    match s with
    | SlotN z _ => mkLib (lib_awr lib) (assign zaid_eq z l (lib_neutron lib)) (lib_tsl lib)
    | SlotT n _ => mkLib (lib_awr lib) (lib_neutron lib) (assign str_eqb n l (lib_tsl lib))
    end.
  Lemma put_same lib s l : list_of lib s = Some l -> put lib s l = lib.
  Proof. destruct lib as [a n t], s as [z i|m i]; cbn; intros H; [rewrite (assign_same zaid_eq _ _ _ H)|rewrite (assign_same str_eqb _ _ _ H)]; reflexivity. Qed.
  Lemma load_loop_bound (t d : T) l : forall i j, load_loop t d l i = Some j -> (i <= j < i + length l)%nat.
  Proof. induction l as [|x l IH]; intros i j; cbn [load_loop]; [discriminate|]. destruct (nltb _ _); [intros H; apply IH in H; cbn; lia|]. destruct (nleb _ _); [intros H; injection H as <-; cbn; lia|]. intros H. apply IH in H. cbn. lia. Qed.
  Lemma load_list_spec b l t d w i : load_loop t d (l_temps l) 0 = Some i -> shaped l ->
    (exists o, nth_error (l_loaded l) i = Some (Some o) /\ load_list good b l t d w = (Ok o, l, w)) \/
    (nth_error (l_loaded l) i = Some None /\ exists tb, nth_error (l_tables l) i = Some tb /\
       load_list good b l t d w = if good (length (w_reads w)) then
          (Ok (w_next w), mkList (l_tables l) (upd_nat (l_loaded l) i (Some (w_next w))) (l_temps l) (match l_first l with Some f => Some f | None => if b then Some (w_next w) else None end),
           mkWorld (S (w_next w)) (w_reads w ++ [mkRead tb (l_first l) (Some (w_next w))]))
        else (Throw, l, mkWorld (w_next w) (w_reads w ++ [mkRead tb (l_first l) None]))).
  Proof.
    intros E (S1 & S2). pose proof (load_loop_bound _ _ _ _ _ E) as B. unfold load_list. rewrite E.
    destruct (nth_error (l_loaded l) i) as [[o|]|] eqn:Q1; [|destruct (nth_error (l_tables l) i) as [tb|] eqn:Q2|]; [left; eauto|right|apply nth_error_None in Q2; lia|apply nth_error_None in Q1; lia].
    split; [reflexivity|]. exists tb. split; [reflexivity|]. reflexivity.
  Qed.
  (** one request *)
  Lemma serve_none lib q w : asks lib q = None -> serve good q lib w = (Throw, lib, w).
  Proof.
    destruct q as [s t d|s t d]; cbn.
    - unfold load_STNeutron. destruct (symbol_to_zaid s) as [z| | |]; try reflexivity. destruct (lookup zaid_eq z (lib_neutron lib)) as [l|] eqn:L; [|reflexivity]. destruct (load_loop t d (l_temps l) 0) eqn:Q; [discriminate|]. intros _. unfold load_list. rewrite Q. rewrite (assign_same zaid_eq _ _ _ L). destruct lib; reflexivity.
    - unfold load_STTSL. destruct (tsl_name s) as [n|]; [|reflexivity]. destruct (lookup str_eqb n (lib_tsl lib)) as [l|] eqn:L; [|reflexivity]. destruct (load_loop t d (l_temps l) 0) eqn:Q; [discriminate|]. intros _. unfold load_list. rewrite Q. rewrite (assign_same str_eqb _ _ _ L). destruct lib; reflexivity.
  Qed.
  Lemma asks_inv lib q s : asks lib q = Some s -> exists l t d, list_of lib s = Some l /\ load_loop t d (l_temps l) 0 = Some (index_of s) /\
    forall w, serve good q lib w = (let '(r, l', w') := load_list good (neutron_slot s) l t d w in (r, put lib s l', w')).
  Proof.
    destruct q as [y t d|y t d]; cbn.
    - unfold load_STNeutron. destruct (symbol_to_zaid y) as [z| | |]; try discriminate. destruct (lookup zaid_eq z (lib_neutron lib)) as [l|] eqn:L; [|discriminate]. destruct (load_loop t d (l_temps l) 0) as [i|] eqn:Q; [|discriminate]. intros H. injection H as <-. exists l, t, d. auto.
    - unfold load_STTSL. destruct (tsl_name y) as [n|]; [|discriminate]. destruct (lookup str_eqb n (lib_tsl lib)) as [l|] eqn:L; [|discriminate]. destruct (load_loop t d (l_temps l) 0) as [i|] eqn:Q; [|discriminate]. intros H. injection H as <-. exists l, t, d. auto.
  Qed.
  Definition same_group (s s' : slot) : bool := match s, s' with SlotN z _, SlotN z' _ => zaid_eq z z' | SlotT n _, SlotT n' _ => str_eqb n n' | _, _ => false end.
  Lemma list_of_put lib s l s' : list_of (put lib s l) s' = if same_group s s' then Some l else list_of lib s'.
  Proof. destruct s as [z i|n i], s' as [z' i'|n' i']; cbn; try reflexivity; [apply (lookup_assign zaid_eq zaid_eqb_iff)|apply (lookup_assign str_eqb str_eqb_iff)]. Qed.
  Lemma same_group_list lib s s' : same_group s s' = true -> list_of lib s = list_of lib s'.
  Proof. destruct s as [z i|n i], s' as [z' i'|n' i']; cbn; try discriminate; intros H; [apply zaid_eqb_iff in H as ->|apply str_eqb_iff in H as ->]; reflexivity. Qed.
  Lemma same_group_eq s s' : same_group s s' = true -> index_of s = index_of s' -> s = s'.
  Proof. destruct s as [z i|n i], s' as [z' i'|n' i']; cbn; try discriminate; intros H E; [apply zaid_eqb_iff in H as ->|apply str_eqb_iff in H as ->]; congruence. Qed.
  Lemma same_group_refl s : same_group s s = true.
  Proof. destruct s; cbn; [apply zaid_eqb_iff|apply str_eqb_iff]; reflexivity. Qed.
  Definition lists_ok (lib : library) : Prop := forall s l, list_of lib s = Some l -> shaped l.
  (** invariant *)
  Definition cache_ok (lib : library) (w : world) : Prop :=
    lists_ok lib /\
    (forall s o, object_at lib s = Some o -> (o < w_next w)%nat) /\
    (forall s1 s2 o, object_at lib s1 = Some o -> object_at lib s2 = Some o -> s1 = s2) /\
    (forall z i l, list_of lib (SlotN z i) = Some l -> match l_first l with Some f => exists j, object_at lib (SlotN z j) = Some f | None => forall j, object_at lib (SlotN z j) = None end).
  Lemma nth_upd {A} (l : list A) (i j : nat) (x : A) : (i < length l)%nat -> nth_error (upd_nat l i x) j = if Nat.eqb i j then Some x else nth_error l j.
  Proof. revert i j. induction l as [|a l IH]; intros [|i] [|j] H; cbn in *; try lia; try reflexivity. apply IH. lia. Qed.
  Lemma length_upd {A} (l : list A) i (x : A) : length (upd_nat l i x) = length l.
  Proof. revert i. induction l as [|a l IH]; intros [|i]; cbn; try reflexivity. f_equal. apply IH. Qed.
  Lemma asks_put lib s l l' q : list_of lib s = Some l -> l_temps l' = l_temps l -> asks (put lib s l') q = asks lib q.
  Proof.
    intros L E. destruct q as [y t d|y t d]; cbn.
    - destruct (symbol_to_zaid y) as [z| | |]; try reflexivity. pose proof (list_of_put lib s l' (SlotN z 0)) as P. cbn [list_of] in P. rewrite P. destruct (same_group s (SlotN z 0)) eqn:G; [|reflexivity]. apply (same_group_list lib) in G. rewrite L in G. cbn [list_of] in G. rewrite <- G, E. reflexivity.
    - destruct (tsl_name y) as [n|]; try reflexivity. pose proof (list_of_put lib s l' (SlotT n 0)) as P. cbn [list_of] in P. rewrite P. destruct (same_group s (SlotT n 0)) eqn:G; [|reflexivity]. apply (same_group_list lib) in G. rewrite L in G. cbn [list_of] in G. rewrite <- G, E. reflexivity.
  Qed.
  (** what one request does *)
  Lemma serve_step lib w q s r lib' w' : cache_ok lib w -> asks lib q = Some s -> serve good q lib w = (r, lib', w') ->
    cache_ok lib' w' /\ (forall q', asks lib' q' = asks lib q') /\ (forall s' o, object_at lib s' = Some o -> object_at lib' s' = Some o) /\
    ((exists o, object_at lib s = Some o /\ r = Ok o /\ lib' = lib /\ w' = w) \/
     (object_at lib s = None /\ exists tb base, (exists l, list_of lib s = Some l /\ nth_error (l_tables l) (index_of s) = Some tb /\ l_first l = base) /\
       ((r = Ok (w_next w) /\ object_at lib' s = Some (w_next w) /\ w' = mkWorld (S (w_next w)) (w_reads w ++ [mkRead tb base (Some (w_next w))])) \/
        (r = Throw /\ lib' = lib /\ w' = mkWorld (w_next w) (w_reads w ++ [mkRead tb base None]))))).
  Proof.
    intros C A H. destruct (asks_inv lib q s A) as (l & t & d & L & Q & F). rewrite F in H. destruct C as (C1 & C2 & C3 & C4).
    destruct (load_list_spec (neutron_slot s) l t d w (index_of s) Q (C1 s l L)) as [(o & Ho & E)|(Ho & tb & Ht & E)]; rewrite E in H.
    - injection H as <- <- <-. rewrite (put_same lib s l L). split; [split; auto|]. split; [auto|]. split; [auto|]. left. exists o. unfold object_at. rewrite L, Ho. auto.
    - assert (O : object_at lib s = None) by (unfold object_at; rewrite L, Ho; reflexivity). destruct (good _) eqn:G.
      + set (o := w_next w) in *. set (l' := mkList _ _ _ _) in H. injection H as <- <- <-.
        assert (OA : forall s', object_at (put lib s l') s' = if andb (same_group s s') (Nat.eqb (index_of s) (index_of s')) then Some o else object_at lib s').
        { intros s'. unfold object_at. rewrite list_of_put. destruct (same_group s s') eqn:G'; [|reflexivity]. rewrite <- (same_group_list lib _ _ G'), L. cbn [l_loaded l' andb]. rewrite nth_upd; [|destruct (C1 s l L) as (S1 & _); pose proof (load_loop_bound _ _ _ _ _ Q); lia]. destruct (Nat.eqb _ _); reflexivity. }
        assert (OS : object_at (put lib s l') s = Some o) by (rewrite OA, same_group_refl, Nat.eqb_refl; reflexivity).
        assert (Fresh : forall s', object_at lib s' <> Some o) by (intros s' X; apply C2 in X; unfold o in X; lia).
        assert (Keep : forall s' o', object_at lib s' = Some o' -> object_at (put lib s l') s' = Some o').
        { intros s' o' X. rewrite OA. destruct (andb _ _) eqn:GG; [|exact X]. apply andb_true_iff in GG as [G1 G2]. apply Nat.eqb_eq in G2. pose proof (same_group_eq s s' G1 G2) as <-. congruence. }
        assert (Inv : forall s' o', object_at (put lib s l') s' = Some o' -> (s' = s /\ o' = o) \/ object_at lib s' = Some o').
        { intros s' o'. rewrite OA. destruct (andb _ _) eqn:GG; [|auto]. apply andb_true_iff in GG as [G1 G2]. apply Nat.eqb_eq in G2. intros X. injection X as <-. left. split; [symmetry; apply same_group_eq; assumption|reflexivity]. }
        split; [|split; [|split]].
        * split; [|split; [|split]].
          -- intros s' l0. rewrite list_of_put. destruct (same_group s s'); [intros X; injection X as <-|apply C1]. destruct (C1 s l L) as (S1 & S2). split; cbn [l_loaded l_temps l_tables l']; [rewrite length_upd; exact S1|exact S2].
          -- intros s' o' X. cbn [w_next]. destruct (Inv s' o' X) as [[_ ->]|Y]; [lia|]. apply C2 in Y. lia.
          -- intros s1 s2 o' X1 X2. destruct (Inv _ _ X1) as [[-> ->]|Y1], (Inv _ _ X2) as [[-> ?]|Y2]; try reflexivity; try (subst; exfalso; eapply Fresh; eassumption). eauto.
          -- intros z i l0. rewrite list_of_put. destruct (same_group s (SlotN z i)) eqn:GZ; intros X.
             ++ injection X as <-. cbn [l_first l']. destruct s as [z' i'|n' i']; [|discriminate]. cbn [same_group] in GZ. apply zaid_eqb_iff in GZ as ->. specialize (C4 z i' l L). destruct (l_first l) as [f|]; [destruct C4 as (j & Oj); exists j; apply Keep, Oj|]. cbn [neutron_slot]. exists i'. exact OS.
             ++ specialize (C4 z i l0 X). destruct (l_first l0) as [f|]; [destruct C4 as (j & Oj); exists j; apply Keep, Oj|]. intros j. rewrite OA. destruct (same_group s (SlotN z j)) eqn:GJ; [destruct s; cbn in *; congruence|]. cbn [andb]. apply C4.
        * intros q'. apply (asks_put lib s l); [exact L|reflexivity].
        * exact Keep.
        * right. split; [exact O|]. exists tb, (l_first l). split; [eauto|]. left. auto.
      + injection H as <- <- <-. rewrite (put_same lib s l L). split; [split; [|split; [|split]]; auto|]. split; [auto|]. split; [auto|]. right. split; [exact O|]. exists tb, (l_first l). split; [eauto|]. right. auto.
  Qed.
  Lemma serve_keeps lib w q r lib' w' : cache_ok lib w -> serve good q lib w = (r, lib', w') ->
    cache_ok lib' w' /\ (forall q', asks lib' q' = asks lib q') /\ (forall s' o, object_at lib s' = Some o -> object_at lib' s' = Some o) /\ (forall o, r = Ok o -> exists s, asks lib q = Some s /\ object_at lib' s = Some o).
  Proof.
    intros C H. destruct (asks lib q) as [s|] eqn:A.
    - destruct (serve_step lib w q s r lib' w' C A H) as (C' & A' & K & D). split; [exact C'|]. split; [exact A'|]. split; [exact K|]. intros o E. exists s. split; [reflexivity|]. destruct D as [(o' & O & -> & -> & _)|(_ & tb & base & _ & [(-> & O & _)|(-> & _)])]; [|injection E as <-; exact O|discriminate]. injection E as <-. exact O.
    - rewrite (serve_none lib q w A) in H. injection H as <- <- <-. split; [exact C|]. split; [auto|]. split; [auto|]. discriminate.
  Qed.
  Lemma serve_all_keeps qs : forall lib w rs lib' w', cache_ok lib w -> serve_all good qs lib w = (rs, lib', w') ->
    cache_ok lib' w' /\ (forall q', asks lib' q' = asks lib q') /\ (forall s o, object_at lib s = Some o -> object_at lib' s = Some o) /\
    (length rs = length qs) /\
    (forall i q o, nth_error qs i = Some q -> nth_error rs i = Some (Ok o) -> exists s, asks lib q = Some s /\ object_at lib' s = Some o).
  Proof.
    induction qs as [|q qs IH]; intros lib w rs lib' w' C H; cbn [serve_all] in H.
    - injection H as <- <- <-. split; [exact C|]. split; [auto|]. split; [auto|]. split; [reflexivity|]. intros [|i] q o; discriminate.
    - destruct (serve good q lib w) as [[r lib1] w1] eqn:E1. destruct (serve_all good qs lib1 w1) as [[rs1 lib2] w2] eqn:E2. injection H as <- <- <-.
      destruct (serve_keeps lib w q r lib1 w1 C E1) as (C1 & A1 & K1 & D1). destruct (IH lib1 w1 rs1 lib2 w2 C1 E2) as (C2 & A2 & K2 & Len & D2).
      split; [exact C2|]. split; [intros q'; rewrite A2; apply A1|]. split; [auto|]. split; [cbn; lia|]. intros [|i] q0 o Hq Hr; cbn in Hq, Hr.
      + injection Hq as <-. injection Hr as ->. destruct (D1 o eq_refl) as (s & As & O). exists s. auto.
      + destruct (D2 i q0 o Hq Hr) as (s & As & O). exists s. rewrite <- A1. auto.
  Qed.
  (** a fresh library: lists of equal lengths, nothing loaded *)
  Definition fresh (lib : library) : Prop := forall s l, list_of lib s = Some l -> shaped l /\ (forall i o, nth_error (l_loaded l) i = Some o -> o = None) /\ l_first l = None.
  Lemma fresh_ok lib w : fresh lib -> cache_ok lib w.
  Proof.
    intros F. assert (O : forall s, object_at lib s = None). { intros s. unfold object_at. destruct (list_of lib s) as [l|] eqn:L; [|reflexivity]. destruct (nth_error (l_loaded l) (index_of s)) as [o|] eqn:Q; [|reflexivity]. apply (F s l L) in Q. exact Q. }
    split; [intros s l L; apply (F s l L)|]. split; [intros s o X; rewrite O in X; discriminate|]. split; [intros s1 s2 o X; rewrite O in X; discriminate|]. intros z i l L. destruct (F _ _ L) as (_ & _ & ->). intros j. apply O.
  Qed.
End Cache.
