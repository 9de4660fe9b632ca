(** * C86: MCNP xsdir files and Serpent xsdata files, from their text *)
From Coq Require Import Reals.
From Coq Require Import String Ascii List Permutation. Import ListNotations.
From Coq Require Import ZArith.
From Verif Require Import Base NumR M_Grid M_Ident S_Ident M_Library S_Library L_Library L_Library2 M_Xsdir S_Xsdir L_Xsdir L_Xsdir2 L_Xsdir3 L_Xsdir4 L_Xsdir5.
Local Open Scope list_scope.
Local Open Scope Z_scope.

(** full claim: the library built from an xsdir file in the MCNP format has the atomic weight ratios of its section, the entries of its directory whatever their layout (spaces, continuation lines, blank lines),
    and the files under its data path. Proved for files whose sections have the form [xsdir] of S_Xsdir; the refuted theorems are valid files outside it. *)
Theorem C86_entries_partial {T} {N : Num T} stod stoul_of (to_kelvin : T -> T) parent t pairs d ls rows : xsdir parent t pairs d ls -> Forall2 (entry_row d) ls rows ->
  MCNPLibrary_text stod stoul_of to_kelvin parent t =
  (let! awrs := awr_pairs stod (flat_map (fun p => [p_zaid p; p_value p]) pairs) [] in MCNPLibrary stod stoul_of to_kelvin awrs rows).
Proof. exact (mcnp_text stod stoul_of to_kelvin parent t pairs d ls rows). Qed.
Print Assumptions C86_entries_partial.
(** there is such a list of rows, and only one *)
Theorem C86_rows d ls : Forall line_ok ls -> exists rows, Forall2 (entry_row d) ls rows /\ forall rows', Forall2 (entry_row d) ls rows' -> rows' = rows.
Proof. intros F. exists (map (with_path d) (map line_entry ls)). split; [exact (entry_rows d ls F)|]. intros rows' H. exact (entry_rows_unique d ls rows' F H). Qed.
Print Assumptions C86_rows.
(** the tables: each entry of continuous-energy neutron data (its name ends in c) and of thermal scattering data (in t) exactly once, with its located file *)
Theorem C86_tables_partial stod stoul_of to_kelvin parent t pairs d ls rows lib : xsdir parent t pairs d ls -> Forall2 (entry_row d) ls rows -> MCNPLibrary_text stod stoul_of to_kelvin parent t = Ok lib ->
  (forall z, exists ts, Forall2 (line_describes stod to_kelvin) (filter (line_is_n stoul_of z) rows) ts /\ Permutation (tables_n lib z) ts) /\
  (forall n, exists ts, Forall2 (line_describes stod to_kelvin) (filter (line_is_t n) rows) ts /\ Permutation (tables_t lib n) ts).
Proof.
  intros X R H. rewrite (mcnp_text stod stoul_of to_kelvin parent t pairs d ls rows X R) in H. apply L_Search.bind_ok in H as (awrs & _ & H). destruct (mcnp_library stod stoul_of to_kelvin awrs rows lib H) as (_ & _ & _ & A & B). split; assumption.
Qed.
Print Assumptions C86_tables_partial.
(** atomic weight ratios: the value of the last pair with the ZAID of the symbol; an exception when there is none *)
Theorem C86_awr_partial {T} {N : Num T} stod stoul_of (to_kelvin : T -> T) parent t pairs d ls lib : xsdir parent t pairs d ls -> MCNPLibrary_text stod stoul_of to_kelvin parent t = Ok lib ->
  forall s Z0 A, symbol_to_zaid s = Ok (mkZaid Z0 A) -> 0 <= A < 1000 -> 0 <= Z0 < 256 -> forall v, atomic_weight_ratio lib s = Ok v <-> given_awr (fun w v => stod w = Ok v) pairs Z0 A v.
Proof. exact (mcnp_text_awr stod stoul_of to_kelvin parent t pairs d ls lib). Qed.
Print Assumptions C86_awr_partial.
(** files without the sections are refused *)
Theorem C86_missing_awr {T} {N : Num T} stod stoul_of (to_kelvin : T -> T) parent t : nowhere (txt "atomic") t -> MCNPLibrary_text stod stoul_of to_kelvin parent t = Throw.
Proof. exact (mcnp_text_no_awr stod stoul_of to_kelvin parent t). Qed.
Print Assumptions C86_missing_awr.
Theorem C86_missing_directory {T} {N : Num T} stod stoul_of (to_kelvin : T -> T) parent t : (forall s, settled (stod s)) -> nowhere (txt "directory") t -> MCNPLibrary_text stod stoul_of to_kelvin parent t = Throw.
Proof. exact (mcnp_text_no_directory stod stoul_of to_kelvin parent t). Qed.
Print Assumptions C86_missing_directory.
(** whatever the file contains, the constructor returns a library or throws *)
Theorem C86_any_text {T} {N : Num T} stod stoul_of (to_kelvin : T -> T) parent t : (forall s, settled (stod s)) -> (forall s, settled (stoul_of s)) -> MCNPLibrary_text stod stoul_of to_kelvin parent t = Throw \/ exists lib, MCNPLibrary_text stod stoul_of to_kelvin parent t = Ok lib.
Proof. intros Hd Hu. exact (text_settled stod stoul_of to_kelvin Hd Hu parent t). Qed.
Print Assumptions C86_any_text.
(** Serpent: only the words of the file matter, and whether it ends with white space *)
Theorem C86_serpent {T} {N : Num T} stod stoul_of ws t c : laid_out ws (t ++ [c]) -> exists b, (b = true <-> blank c) /\ @SerpentLibrary_text T N stod stoul_of (t ++ [c]) = SerpentLibrary stod stoul_of ws b.
Proof.
  intros L. exists (is_space c). split; [symmetry; apply L_Ident3.blank_space|]. rewrite (serpent_text stod stoul_of ws (t ++ [c]) L); [rewrite last_last; reflexivity|]. destruct t; discriminate.
Qed.
Print Assumptions C86_serpent.

(** ** valid files that are not read correctly *)
(** a value with an exponent is cut, and the pairs after it are ignored *)
Theorem C86_exponent_refuted : forall (stod : str -> res R) stoul_of tk parent x, stod (txt "9.99167") = Ok x ->
  exists lib, MCNPLibrary_text stod stoul_of tk parent (unix ["atomic weight ratios"; "1001 9.99167E-1 1002 1.9968"; "directory"]%string) = Ok lib /\ atomic_weight_ratio lib (txt "H1") = Ok x /\ atomic_weight_ratio lib (txt "H2") = Throw.
Proof.
  intros stod stoul_of tk parent x H. exists (mkLib [(mkZaid 1 1, x)] [] []). split; [|split; vm_compute; reflexivity]. unfold MCNPLibrary_text.
  assert (read_awrs stod (unix ["atomic weight ratios"; "1001 9.99167E-1 1002 1.9968"; "directory"]%string) = (let! x := stod (txt "9.99167") in Ok [(mkZaid 1 1, x)])) as -> by (vm_compute; reflexivity). rewrite H. cbn [bind].
  assert (read_lines (unix ["atomic weight ratios"; "1001 9.99167E-1 1002 1.9968"; "directory"]%string) = Ok [[]]) as -> by (vm_compute; reflexivity). cbn [bind map with_path]. vm_compute. reflexivity.
Qed.
Print Assumptions C86_exponent_refuted.
(** a data path that contains the word directory: the lines after it are taken for directory entries *)
Theorem C86_directory_in_path_refuted : forall (stod : str -> res R) stoul_of tk parent x, stod (txt "0.999167") = Ok x ->
  MCNPLibrary_text stod stoul_of tk parent (unix ["datapath=/xs/directory"; "atomic weight ratios"; "1001 0.999167"; "directory"]%string) = Throw.
Proof.
  intros stod stoul_of tk parent x H. unfold MCNPLibrary_text. assert (read_awrs stod (unix ["datapath=/xs/directory"; "atomic weight ratios"; "1001 0.999167"; "directory"]%string) = (let! x := stod (txt "0.999167") in Ok [(mkZaid 1 1, x)])) as -> by (vm_compute; reflexivity). rewrite H. cbn [bind].
  assert (read_lines (unix ["datapath=/xs/directory"; "atomic weight ratios"; "1001 0.999167"; "directory"]%string) = Ok [[txt "atomic"; txt "weight"; txt "ratios"]; [txt "1001"; txt "0.999167"]; [txt "directory"]; []]) as -> by (vm_compute; reflexivity). reflexivity.
Qed.
Print Assumptions C86_directory_in_path_refuted.
(** lines that end with carriage return and newline: an empty line is refused as an entry of one word *)
Theorem C86_carriage_return_refuted : forall (stod : str -> res R) stoul_of tk parent x, stod (txt "0.999167") = Ok x ->
  MCNPLibrary_text stod stoul_of tk parent (dos ["atomic weight ratios"; "1001 0.999167"; "directory"; ""]%string) = Throw.
Proof.
  intros stod stoul_of tk parent x H. unfold MCNPLibrary_text. assert (read_awrs stod (dos ["atomic weight ratios"; "1001 0.999167"; "directory"; ""]%string) = (let! x := stod (txt "0.999167") in Ok [(mkZaid 1 1, x)])) as -> by (vm_compute; reflexivity). rewrite H. cbn [bind].
  assert (read_lines (dos ["atomic weight ratios"; "1001 0.999167"; "directory"; ""]%string) = Ok [[["013"%char]]; []]) as -> by (vm_compute; reflexivity). reflexivity.
Qed.
Print Assumptions C86_carriage_return_refuted.
(** data paths: cut at a colon, the word datapath removed from inside, and the next line when none is given *)
Theorem C86_datapath_refuted : forall parent,
  read_datapath parent (unix ["datapath=C:/xs"; "atomic weight ratios"]%string) = txt "C" /\
  read_datapath parent (unix ["datapath=/my_datapath/xs"; "atomic weight ratios"]%string) = txt "/my_/xs" /\
  read_datapath parent (unix ["datapath="; "atomic weight ratios"]%string) = txt "atomic weight ratios".
Proof. intros parent. split; [|split]; vm_compute; reflexivity. Qed.
Print Assumptions C86_datapath_refuted.

(** ** a file that meets the hypotheses: data path, pairs over two lines, an entry continued on a second line *)
Example C86_file : xsdir [] file_ex pairs_ex (txt "/xs") lines_ex. Proof. exact file_xsdir. Qed.
Example C86_file_rows : Forall2 (entry_row (txt "/xs")) lines_ex
  [map txt ["92235.80c"; "233.0248"; "/xs/u235"; "0"; "1"; "1"; "7"; "0"; "0"; "300"]%string; map txt ["1001.80c"; "0.999167"; "/h/h1"; "0"; "2"; "4"; "17969"; "0"; "0"; "600"]%string; []; []].
Proof.
  constructor; [eexists; split; [exact (loc_in (txt "/x") "s" (txt "u235") ltac:(discriminate) ltac:(discriminate))|reflexivity]|]. constructor; [eexists; split; [exact (loc_absolute (txt "/xs") (txt "h/h1"))|reflexivity]|]. constructor; [reflexivity|]. constructor; [reflexivity|constructor].
Qed.
Example C86_file_awr : given_awr (fun w v => w = v) pairs_ex 1 2 (txt "1.996800").
Proof.
  exists [nth 0 pairs_ex (mkPair [] [] [] [] [])], (nth 1 pairs_ex (mkPair [] [] [] [] [])), [nth 2 pairs_ex (mkPair [] [] [] [] [])]. split; [reflexivity|]. split; [apply L_Ident3.denotes_iff; split; [intros c Hc; cbn in Hc; repeat (destruct Hc as [<-|Hc]; [reflexivity|]); destruct Hc|split; [discriminate|reflexivity]]|]. split; [reflexivity|].
  intros q [<-|[]] D. apply L_Ident3.denotes_iff in D as (_ & _ & D). vm_compute in D. discriminate.
Qed.
Example C86_serpent_ex : laid_out [txt "a"; txt "b"] (txt " a  b").
Proof. apply (lay_cons [" "%char] (txt "a") [txt "b"] (txt "  b")); [intros c [<-|[]]; vm_compute; tauto|discriminate|intros c [<-|[]]; vm_compute; intuition discriminate| |intros _; exists " "%char, (txt " b"); split; [reflexivity|vm_compute; tauto]].
  apply (lay_cons (txt "  ") (txt "b") [] []); [intros c [<-|[<-|[]]]; vm_compute; tauto|discriminate|intros c [<-|[]]; vm_compute; intuition discriminate|constructor; intros c []|congruence]. Qed.
