(** * Lemmas for C86: the constructor ends normally or by an exception, and concrete files *)
From Coq Require Import String Ascii List. Import ListNotations.
From Coq Require Import Lia ZifyBool ZifyNat.
From Verif Require Import Base M_Grid L_Search M_Ident L_Ident L_Ident2 S_Ident L_Ident3 M_Library S_Library L_Library M_Xsdir S_Xsdir L_Xsdir L_Xsdir2 L_Xsdir3 L_Xsdir4.
Local Open Scope list_scope.
Local Open Scope Z_scope.
Local Open Scope bool_scope.

Definition settled {A} (m : res A) : Prop := m = Throw \/ exists v, m = Ok v.
Lemma settled_bind {A B} (m : res A) (k : A -> res B) : settled m -> (forall v, m = Ok v -> settled (k v)) -> settled (let! x := m in k x).
Proof. intros [->|[v ->]] H; [left; reflexivity|]. cbn [bind]. apply H. reflexivity. Qed.
Lemma settled_ok {A} (v : A) : settled (Ok v). Proof. right. eauto. Qed.
Lemma settled_mapR {A B} (f : A -> res B) l : (forall a, In a l -> settled (f a)) -> settled (mapR f l).
Proof. induction l as [|a l IH]; intros H; cbn [mapR]; [apply settled_ok|]. apply settled_bind; [apply H; left; reflexivity|]. intros b _. apply settled_bind; [apply IH; intros x Hx; apply H; right; exact Hx|]. intros bs _. apply settled_ok. Qed.
Definition key_ok (z : zaid) : Prop := 0 <= za_Z z < 256 /\ 0 <= za_A z < 2 ^ 32.
Lemma number_key n : key_ok (zaid_of_number n).
Proof. unfold key_ok, zaid_of_number. cbn [za_Z za_A]. unfold wrap32. split; apply Z.mod_pos_bound; lia. Qed.
Lemma assign_keys {V} (k : zaid) (v : V) : forall m, key_ok k -> Forall key_ok (map fst m) -> Forall key_ok (map fst (assign zaid_eq k v m)).
Proof. induction m as [|[k' v'] m IH]; intros K F; cbn [assign]; [constructor; [exact K|constructor]|]. inversion F; subst. destruct (zaid_eq k k'); cbn [map fst]; constructor; auto. Qed.
Lemma insert_keys z : forall l, key_ok z -> Forall key_ok l -> Forall key_ok (insert_zaid z l).
Proof. induction l as [|u l IH]; intros K F; cbn [insert_zaid]; [constructor; [exact K|constructor]|]. inversion F; subst. destruct (zaid_lt u z); repeat (constructor; auto). Qed.
Lemma sorted_keys l : Forall key_ok l -> Forall key_ok (fold_right insert_zaid [] l).
Proof. induction 1 as [|z l K _ IH]; cbn [fold_right]; [constructor|apply insert_keys; assumption]. Qed.
Lemma symbol_settled z : key_ok z -> settled (zaid_symbol z).
Proof.
  intros [KZ KA]. unfold zaid_symbol, make_element_zaid. destruct (za_A z =? 0).
  - destruct (make_element_cases (za_Z z) KZ) as [[_ ->]|[_ ->]]; [apply settled_ok|left; reflexivity].
  - destruct z as [z0 a]. cbn [za_Z za_A] in *. destruct (nuclide_of_zaid_or z0 a KZ KA) as [->|[n ->]]; [left; reflexivity|apply settled_ok].
Qed.
Section Settled.
  Context {T : Type} {N : Num T}.
  Variable stod : str -> res T.
  Variable stoul_of : str -> res Z.
  Variable to_kelvin : T -> T.
  Hypotheses (Hd : forall s, settled (stod s)) (Hu : forall s, settled (stoul_of s)).
  Lemma row_settled ws lib : settled (mcnp_row stod stoul_of to_kelvin ws lib).
  Proof.
    unfold mcnp_row. destruct ws as [|w0 ws]; [apply settled_ok|]. destruct (_ || _); [left; reflexivity|]. cbv zeta. destruct (_ && _); [apply settled_ok|]. apply settled_bind; [apply Hd|]. intros tp _. destruct (Ascii.eqb _ _); [|apply settled_ok]. apply settled_bind; [apply Hu|]. intros za _. apply settled_ok.
  Qed.
  Lemma row_keys ws lib lib' : Forall key_ok (map fst (lib_neutron lib)) -> mcnp_row stod stoul_of to_kelvin ws lib = Ok lib' -> Forall key_ok (map fst (lib_neutron lib')).
  Proof.
    intros K H. unfold mcnp_row in H. destruct ws as [|w0 ws]; [injection H as <-; exact K|]. destruct (_ || _); [discriminate|]. cbv zeta in H. destruct (_ && _); [injection H as <-; exact K|]. apply bind_ok in H as (tp & _ & H). destruct (Ascii.eqb _ _).
    - apply bind_ok in H as (za & _ & H). injection H as <-. cbn [lib_neutron]. unfold add_table. apply assign_keys; [apply number_key|exact K].
    - injection H as <-. exact K.
  Qed.
  Lemma rows_settled : forall lines lib, Forall key_ok (map fst (lib_neutron lib)) -> settled (mcnp_rows stod stoul_of to_kelvin lines lib) /\ forall lib', mcnp_rows stod stoul_of to_kelvin lines lib = Ok lib' -> Forall key_ok (map fst (lib_neutron lib')).
  Proof.
    induction lines as [|ws lines IH]; intros lib K; cbn [mcnp_rows]; [split; [apply settled_ok|intros lib' H; injection H as <-; exact K]|]. split.
    - apply settled_bind; [apply row_settled|]. intros lib1 H1. apply IH, (row_keys ws lib lib1 K H1).
    - intros lib' H. apply bind_ok in H as (lib1 & H1 & H). exact (proj2 (IH lib1 (row_keys ws lib lib1 K H1)) lib' H).
  Qed.
  Lemma library_settled awrs lines : settled (MCNPLibrary stod stoul_of to_kelvin awrs lines).
  Proof.
    unfold MCNPLibrary. destruct (rows_settled lines (mkLib awrs [] []) (Forall_nil _)) as [S K]. apply settled_bind; [exact S|]. intros lib H. specialize (K lib H). cbv zeta. apply settled_bind; [|intros; apply settled_ok]. unfold list_STNeutron. apply settled_mapR. intros z Hz. apply symbol_settled.
    assert (F : Forall key_ok (fold_right insert_zaid [] (map fst (lib_neutron (finish_library lib))))). { apply sorted_keys. unfold finish_library. cbn [lib_neutron]. rewrite map_map. cbn [fst]. exact K. } rewrite Forall_forall in F. apply F, Hz.
  Qed.
  Lemma text_settled parent t : settled (MCNPLibrary_text stod stoul_of to_kelvin parent t).
  Proof.
    unfold MCNPLibrary_text. apply settled_bind.
    - unfold read_awrs. destruct (regex_find rx_awr t); [|left; reflexivity]. apply awr_pairs_or; first [exact Hd | exact stoul_of | exact to_kelvin].
    - intros awrs _. apply settled_bind; [unfold read_lines; destruct (regex_find rx_directory t); [apply settled_ok|left; reflexivity]|]. intros lines _. apply library_settled.
  Qed.
End Settled.

(** ** concrete files *)
Definition join_lines (eol : str) (ls : list string) : str := flat_map (fun s => txt s ++ eol) ls.
Definition unix (ls : list string) : str := join_lines [nl] ls.
Definition dos (ls : list string) : str := join_lines ["013"%char; nl] ls.
Definition entry_u : string := "92235.80c 233.0248 u235 0 1 1 7 0 0 300".
Definition file_ex : str := unix ["datapath = /xs"; "Atomic Weight Ratios"; " 1001 0.999167  1002 1.996800"; "92235 233.024800"; "directory"; entry_u; "  1001.80c  0.999167 /h/h1 0 2 +"; "    4 17969 0 0 600 "; ""]%string.
Lemma begins_ci w r : lower_word w -> begins w r -> rx_ci w ([], r) <> [].
Proof. intros L (u & v & -> & S). rewrite (first_ci w u [] v L S). discriminate. Qed.
(** decision: the word begins nowhere in the first [n] suffixes *)
Fixpoint absent (w : str) (n : nat) (t : str) : bool :=
  match n with O => true | S m => match rx_ci w ([], t) with [] => match t with x :: r => absent w m r | [] => true end | _ => false end end.
Lemma absent_before w : lower_word w -> forall pre rest, absent w (length pre) (pre ++ rest) = true -> not_before w pre rest.
Proof.
  intros L. induction pre as [|x pre IH]; intros rest H a b E Hb B; [destruct a; [cbn in E; congruence|discriminate]|]. cbn [length app absent] in H. destruct (rx_ci w ([], x :: pre ++ rest)) eqn:Q; [|discriminate]. destruct a as [|y a].
  - cbn in E. subst b. exact (begins_ci w _ L B Q).
  - injection E as _ E. exact (IH rest H a b E Hb B).
Qed.
Lemma absent_nowhere w : lower_word w -> w <> [] -> forall t, absent w (length t) t = true -> nowhere w t.
Proof.
  intros L Nw. induction t as [|x t IH]; intros H a b E B.
  - destruct a; [cbn in E; subst b|discriminate]. destruct B as (u & v & E & S). destruct u; [inversion S; congruence|discriminate].
  - cbn [length absent] in H. destruct (rx_ci w ([], x :: t)) eqn:Q; [|discriminate]. destruct a as [|y a]; [cbn in E; subst b; exact (begins_ci w _ L B Q)|]. injection E as _ E. exact (IH H a b E B).
Qed.
Definition pairs_ex : list awr_pair := [mkPair [nl; " "%char] (txt "1001") [" "%char] (txt "0") (txt "999167"); mkPair (txt "  ") (txt "1002") [" "%char] (txt "1") (txt "996800"); mkPair [nl] (txt "92235") [" "%char] (txt "233") (txt "024800")].
Definition words_ex (ws : list string) : list (separator * text) := map (fun w => (Spaces 0, txt w)) ws.
Definition lines_ex : list dir_line :=
  [Entry 0 (txt "92235.80c") (words_ex ["233.0248"; "u235"; "0"; "1"; "1"; "7"; "0"; "0"; "300"]%string) 0;
   Entry 2 (txt "1001.80c") ((Spaces 1, txt "0.999167") :: words_ex ["/h/h1"; "0"; "2"]%string ++ [(Continued 0 [] 4, txt "4")] ++ words_ex ["17969"; "0"; "0"; "600"]%string) 1; Empty 0; Empty 0].
Ltac dig := split; [discriminate|]; intros c Hc; cbn in Hc; repeat (destruct Hc as [<-|Hc]; [vm_compute; lia|]); destruct Hc.
Ltac gp := split; [discriminate|]; intros c Hc; cbn in Hc; repeat (destruct Hc as [<-|Hc]; [vm_compute; tauto|]); destruct Hc.
Ltac wd := split; [discriminate|]; split; [intros c Hc; cbn in Hc; repeat (destruct Hc as [<-|Hc]; [vm_compute; intuition discriminate|]); destruct Hc|discriminate].
Ltac spell := repeat (constructor; [first [left; reflexivity|right; reflexivity]|]); constructor.
Lemma file_xsdir : xsdir [] file_ex pairs_ex (txt "/xs") lines_ex.
Proof.
  split; [|split].
  - exists (txt "datapath = /xs" ++ [nl]), (txt "Atomic Weight Ratios"), (nl :: txt "directory" ++ directory_text 0 lines_ex). split; [vm_compute; reflexivity|]. split.
    { exists (txt "Atomic"), [" "%char], (txt "Weight"), [" "%char], (txt "Ratios"). split; [reflexivity|]. split; [spell|]. split; [gp|]. split; [spell|]. split; [gp|spell]. }
    split; [discriminate|]. split; [repeat (constructor; [split; [gp|]; split; [dig|]; split; [vm_compute; lia|]; split; [gp|]; split; dig|]); constructor|]. split; [split|].
    + intros (c & r & E & H). injection E as <- _. vm_compute in H. lia.
    + intros p r (G1 & Dz & _) E. unfold pair_text in E. rewrite <- !app_assoc in E. destruct (p_gap1 p) as [|g0 [|g1 g]]; [destruct G1 as [G1 _]; congruence| |].
      * destruct (p_zaid p) as [|z zs]; [destruct Dz as [Dz _]; congruence|]. cbn in E. injection E as _ <- _. destruct Dz as [_ Dz]. specialize (Dz "d"%char (or_introl eq_refl)). vm_compute in Dz. lia.
      * cbn in E. injection E as _ <- _. destruct G1 as [_ G1]. specialize (G1 "d"%char (or_intror (or_introl eq_refl))). vm_compute in G1. intuition discriminate.
    + apply absent_before; [exact low_atomic|vm_compute; reflexivity].
  - right. exists [], (txt "datapath"), (txt " = "), (nl :: txt "Atomic Weight Ratios" ++ flat_map pair_text pairs_ex ++ nl :: txt "directory" ++ directory_text 0 lines_ex). split; [vm_compute; reflexivity|]. split; [spell|]. split; [intros a b E Hb; destruct a; [cbn in E; congruence|discriminate]|]. split.
    { exists [" "%char], [" "%char]. split; [intros c [<-|[]]; vm_compute; tauto|]. split; [intros c [<-|[]]; vm_compute; tauto|]. right. reflexivity. }
    split; [split; [exists "/"%char, (txt "xs"); split; [reflexivity|discriminate]|intros c Hc; cbn in Hc; repeat (destruct Hc as [<-|Hc]; [vm_compute; lia|]); destruct Hc]|]. split.
    + intros c r E. injection E as <- _. vm_compute. lia.
    + apply absent_nowhere; [exact low_datapath|discriminate|vm_compute; reflexivity].
  - exists (txt "datapath = /xs" ++ nl :: txt "Atomic Weight Ratios" ++ flat_map pair_text pairs_ex ++ [nl]), (txt "directory"), 0%nat. split; [vm_compute; reflexivity|]. split; [spell|]. split; [apply absent_before; [exact low_directory|vm_compute; reflexivity]|].
    repeat (constructor; [first [exact I | split; [wd|]; repeat (constructor; [split; [first [exact I | intros c []]|wd]|]); constructor]|]). constructor.
Qed.
