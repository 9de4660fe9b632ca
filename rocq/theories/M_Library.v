(** * Models of nd_library.cpp and serpent_library.cpp *)
From Verif Require Import Base M_Grid M_Ident.
From Coq Require Import String Ascii List. Import ListNotations.
Local Open Scope list_scope.
Local Open Scope Z_scope.

(** std::unordered_map as an association list: find / at, and operator[] followed by an update of the value *)
Fixpoint lookup {K V} (eqb : K -> K -> bool) (k : K) (m : list (K * V)) : option V :=
  match m with [] => None | (k', v) :: t => if eqb k k' then Some v else lookup eqb k t end.
Fixpoint assign {K V} (eqb : K -> K -> bool) (k : K) (v : V) (m : list (K * V)) : list (K * V) :=
  match m with [] => [(k, v)] | (k', v') :: t => if eqb k k' then (k', v) :: t else (k', v') :: assign eqb k v t end.

(** nd_library.cpp 42-45 (and 81-84, 213-221): [\w-]{1,6}, the first match; None if there is none *)
Definition is_tsl_char (c : ascii) : bool := is_word c || (code c =? 45).
Definition rx_tsl : regex := rx_from1 5 is_tsl_char.
Definition tsl_name (s : str) : option str := match regex_search rx_tsl s with [] => None | n => Some n end.
(** nd_library.cpp 300-320 *)
Definition symbol_to_zaid (s : str) : res zaid :=
  if regex_match rx_is_nuc s then let! n := nuclide_of_string s in Ok (nuclide_zaid n)
  else if regex_match rx_is_element s then let! e := element_of_string s in Ok (element_zaid e)
  else Throw.

Section Library.
  Context {T : Type} {N : Num T}.
  Local Open Scope num_scope.

  (** nd_library.hpp 143-160; a shared_ptr is None (nullptr) or the number of the object it points to; the thermal scattering
      lists have no first_loaded, which stays None for them *)
  Record table := mkTable { t_file : str; t_binary : bool; t_temp : T }.
  Record stlist := mkList { l_tables : list table; l_loaded : list (option nat); l_temps : list T; l_first : option nat }.
  Record library := mkLib { lib_awr : list (zaid * T); lib_neutron : list (zaid * stlist); lib_tsl : list (str * stlist) }.

  (** the loop nd_library.cpp 116-130 *)
  Fixpoint nearest_loop (temperature : T) (l : list T) (last : res T) : res T :=
    match l with
    | [] => last
    | t :: r =>
      let Tdiff := nabs (temperature -~ t) in
      let Tdiff_1 := match r with t' :: _ => nabs (temperature -~ t') | [] => nofZ (10 ^ 300) end in
      if Tdiff_1 <~ Tdiff then nearest_loop temperature r last else Ok t
    end.
  Definition nearest_of (temperature : T) (temps : list T) : res T := nearest_loop temperature temps (backR temps).
  (** nd_library.cpp 39-74 *)
  Definition find_list (lib : library) (symbol : str) : res stlist :=
    match (match tsl_name symbol with Some n => lookup str_eqb n (lib_tsl lib) | None => None end) with
    | Some l => Ok l
    | None => let! z := symbol_to_zaid symbol in match lookup zaid_eq z (lib_neutron lib) with Some l => Ok l | None => Throw end
    end.
  Definition temperatures (lib : library) (symbol : str) : res (list T) := let! l := find_list lib symbol in Ok (l_temps l).
  (** nd_library.cpp 76-131 *)
  Definition nearest_temperature (lib : library) (symbol : str) (temperature : T) : res T :=
    let! l := find_list lib symbol in nearest_of temperature (l_temps l).
  (** nd_library.cpp 276-298 *)
  Definition atomic_weight_ratio (lib : library) (symbol : str) : res T :=
    let! z := symbol_to_zaid symbol in match lookup zaid_eq z (lib_awr lib) with Some a => Ok a | None => Throw end.

  (** the loop nd_library.cpp 159-173 (= 231-245); None: no index was found. Line 164 reads temperatures[i] *)
  Fixpoint load_loop (temperature tolerance : T) (l : list T) (i : nat) : option nat :=
    match l with
    | [] => None
    | t :: r =>
      let Tdiff := nabs (temperature -~ t) in
      let Tdiff_1 := match r with _ :: _ => nabs (temperature -~ t) | [] => nofZ (10 ^ 300) end in
      if Tdiff_1 <~ Tdiff then load_loop temperature tolerance r (S i)
      else if Tdiff <=~ tolerance then Some i
      else load_loop temperature tolerance r (S i)
    end.

  (** The outside world: the number of objects created so far and the list of the ACE files read so far, each with the object
      from which shared data were taken (first_loaded) and the object made, None when reading or construction threw.
      Whether the [n]-th read succeeds is up to [good n]. *)
  Record reading := mkRead { r_table : table; r_base : option nat; r_made : option nat }.
  Record world := mkWorld { w_next : nat; w_reads : list reading }.
  Variable good : nat -> bool.
  (** nd_library.cpp 159-208 ([neutron] = true) and 231-273 ([neutron] = false) *)
  Definition load_list (neutron : bool) (l : stlist) (temperature tolerance : T) (w : world) : res nat * stlist * world :=
    match load_loop temperature tolerance (l_temps l) 0 with
    | None => (Throw, l, w)
    | Some i =>
      match nth_error (l_loaded l) i, nth_error (l_tables l) i with
      | Some (Some o), _ => (Ok o, l, w)
      | Some None, Some t =>
        if good (length (w_reads w)) then
          let o := w_next w in
          (Ok o,
           mkList (l_tables l) (upd_nat (l_loaded l) i (Some o)) (l_temps l)
                  (match l_first l with Some f => Some f | None => if neutron then Some o else None end),
           mkWorld (S o) (w_reads w ++ [mkRead t (l_first l) (Some o)]))
        else (Throw, l, mkWorld (w_next w) (w_reads w ++ [mkRead t (l_first l) None]))
      | _, _ => (UB, l, w)
      end
    end.
  (** nd_library.cpp 133-209 *)
  Definition load_STNeutron (lib : library) (symbol : str) (temperature tolerance : T) (w : world) : res nat * library * world :=
    match symbol_to_zaid symbol with
    | Ok z =>
      match lookup zaid_eq z (lib_neutron lib) with
      | Some l => let '(r, l', w') := load_list true l temperature tolerance w in
                  (r, mkLib (lib_awr lib) (assign zaid_eq z l' (lib_neutron lib)) (lib_tsl lib), w')
      | None => (Throw, lib, w)
      end
    | _ => (Throw, lib, w)
    end.
  (** nd_library.cpp 211-274 *)
  Definition load_STTSL (lib : library) (symbol : str) (temperature tolerance : T) (w : world) : res nat * library * world :=
    match tsl_name symbol with
    | Some n =>
      match lookup str_eqb n (lib_tsl lib) with
      | Some l => let '(r, l', w') := load_list false l temperature tolerance w in
                  (r, mkLib (lib_awr lib) (lib_neutron lib) (assign str_eqb n l' (lib_tsl lib)), w')
      | None => (Throw, lib, w)
      end
    | None => (Throw, lib, w)
    end.
  (** a caller's requests, and the results of a sequence of them *)
  Inductive request := AskNeutron (symbol : str) (temperature tolerance : T) | AskTSL (symbol : str) (temperature tolerance : T).
  Definition serve (q : request) (lib : library) (w : world) : res nat * library * world :=
    match q with AskNeutron s t d => load_STNeutron lib s t d w | AskTSL s t d => load_STTSL lib s t d w end.
  Fixpoint serve_all (qs : list request) (lib : library) (w : world) : list (res nat) * library * world :=
    match qs with
    | [] => ([], lib, w)
    | q :: t => let '(r, lib', w') := serve q lib w in let '(rs, lib'', w'') := serve_all t lib' w' in (r :: rs, lib'', w'')
    end.

  (** ** Building a library. std::sort by temperature (mcnp_library.cpp 217-220, serpent_library.cpp 111-114): the order of
      entries of equal temperature is unspecified; an insertion sort is one of the possible results *)
  Fixpoint insert_table (t : table) (l : list table) : list table :=
    match l with [] => [t] | u :: r => if t_temp u <~ t_temp t then u :: insert_table t r else t :: u :: r end.
  Definition sort_tables (l : list table) : list table := fold_right insert_table [] l.
  (** mcnp_library.cpp 216-226, serpent_library.cpp 110-120 *)
  Definition finish_list (l : stlist) : stlist :=
    let ts := sort_tables (l_tables l) in mkList ts (l_loaded l) (map t_temp ts) (l_first l).
  (** st_neutron_data_[zaid].tables.push_back(...) and .loaded_data.push_back(nullptr) *)
  Definition no_list : stlist := mkList [] [] [] None.
  Definition push_table (t : table) (l : stlist) : stlist := mkList (l_tables l ++ [t]) (l_loaded l ++ [None]) (l_temps l) (l_first l).
  Definition add_table {K} (eqb : K -> K -> bool) (k : K) (t : table) (m : list (K * stlist)) : list (K * stlist) :=
    assign eqb k (push_table t (match lookup eqb k m with Some l => l | None => no_list end)) m.

  (** nd_library.cpp 322-361: symbols in the order of the sorted ZAIDs *)
  Fixpoint insert_zaid (z : zaid) (l : list zaid) : list zaid :=
    match l with [] => [z] | u :: r => if zaid_lt u z then u :: insert_zaid z r else z :: u :: r end.
  Definition zaid_symbol (z : zaid) : res str :=
    if za_A z =? 0 then let! e := make_element_zaid z in Ok (element_symbol e)
    else let! n := nuclide_of_zaid z in Ok (nuclide_symbol n).
  Definition list_STNeutron (lib : library) : res (list str) :=
    mapR zaid_symbol (fold_right insert_zaid [] (map fst (lib_neutron lib))).

  (** *** serpent_library.cpp: the stream is its white-space separated words, whether white space follows the last one, and eof *)
  Record stream := mkStream { s_words : list str; s_trailing : bool; s_eof : bool }.
  (** stream >> s: when no word is left, s keeps its value *)
  Definition get (old : str) (s : stream) : str * stream :=
    match s_words s with
    | w :: r => (w, mkStream r (s_trailing s) (match r with [] => negb (s_trailing s) | _ => false end))
    | [] => (old, mkStream [] (s_trailing s) true)
    end.
  (** serpent_library.cpp 55-64: the variables of the loop that are used *)
  Record vars := mkVars { v_zaid : str; v_type : str; v_ZA : str; v_AW : str; v_T : str; v_bin : str; v_path : str; v_seen : list str }.
  (** serpent_library.cpp 66-74 *)
  Definition read_row (v : vars) (s : stream) : vars * stream :=
    let '(_, s) := get [] s in
    let '(zaid, s) := get (v_zaid v) s in
    let '(type, s) := get (v_type v) s in
    let '(ZA, s) := get (v_ZA v) s in
    let '(_, s) := get [] s in
    let '(AW, s) := get (v_AW v) s in
    let '(T0, s) := get (v_T v) s in
    let '(bin, s) := get (v_bin v) s in
    let '(path, s) := get (v_path v) s in
    (mkVars zaid type ZA AW T0 bin path (v_seen v), s).
  Definition first_is (c : ascii) (s : str) : bool := match s with x :: _ => Ascii.eqb x c | [] => false end.
  (** ([.][\w]{3}) *)
  Definition rx_ext3 : regex := rx_seq (rx_chr (fun c => code c =? 46)) (rx_seq (rx_chr is_word) (rx_seq (rx_chr is_word) (rx_chr is_word))).
  (** std::stod and std::stoul of a whole word; they throw when there is no number *)
  Variable stod : str -> res T.
  Variable stoul_of : str -> res Z.
  Definition zaid_of_number (za : Z) : zaid := let z := (za / 1000) mod 256 in mkZaid z (wrap32 (za - z * 1000)).
  (** serpent_library.cpp 76-105 *)
  Definition add_row (v : vars) (lib : library) : res (vars * library) :=
    if negb (first_is "1"%char (v_type v)) && negb (first_is "3"%char (v_type v)) then Ok (v, lib)
    else if existsb (str_eqb (v_zaid v)) (v_seen v) then Ok (v, lib)
    else
      let! temp := stod (v_T v) in
      let t := mkTable (v_path v) (first_is "1"%char (v_bin v)) temp in
      let name := regex_remove rx_ext3 (v_zaid v) in
      let v' := mkVars name (v_type v) (v_ZA v) (v_AW v) (v_T v) (v_bin v) (v_path v) (v_zaid v :: v_seen v) in
      if first_is "1"%char (v_type v) then
        let! ZA := stoul_of (v_ZA v) in
        let z := zaid_of_number (wrap32 ZA) in
        let! awr := stod (v_AW v) in
        Ok (v', mkLib (assign zaid_eq z awr (lib_awr lib)) (add_table zaid_eq z t (lib_neutron lib)) (lib_tsl lib))
      else Ok (v', mkLib (lib_awr lib) (lib_neutron lib) (add_table str_eqb name t (lib_tsl lib))).
  (** the loop serpent_library.cpp 65-106; [fuel] bounds its iterations *)
  Fixpoint rows_loop (fuel : nat) (v : vars) (s : stream) (lib : library) : res library :=
    match fuel with
    | O => NoDraw
    | S m =>
      if s_eof s then Ok lib
      else let '(v', s') := read_row v s in let! vl := add_row v' lib in rows_loop m (fst vl) s' (snd vl)
    end.
  Definition no_vars : vars := mkVars [] [] [] [] [] [] [] [].
  Definition empty_library : library := mkLib [] [] [].
  Definition finish_library (lib : library) : library :=
    mkLib (lib_awr lib) (map (fun kl => (fst kl, finish_list (snd kl))) (lib_neutron lib)) (map (fun kl => (fst kl, finish_list (snd kl))) (lib_tsl lib)).
  (** serpent_library.cpp 44-136, the text given by its words; the symbol lists are recomputed on demand by [list_STNeutron],
      which must succeed here *)
  Definition SerpentLibrary (words : list str) (trailing : bool) : res library :=
    let! lib := rows_loop (S (S (length words))) no_vars (mkStream words trailing false) empty_library in
    let lib' := finish_library lib in
    let! _ := list_STNeutron lib' in
    Ok lib'.

  (** *** mcnp_library.cpp 132-241: the directory part, each logical line given by its space separated words (the file is read and
      continuation lines are joined before: M_Xsdir). ([.][\w]{3,5}) *)
  Definition rx_ext35 : regex := rx_seq (rx_chr (fun c => code c =? 46)) (rx_seq (rx_chr is_word) (rx_seq (rx_chr is_word) (rx_seq (rx_chr is_word) (rx_upto 2 is_word)))).
  Definition word (ws : list str) (i : nat) : str := nth i ws [].
  Variable to_kelvin : T -> T.                                      (* line 185: * MEV_TO_EV * EV_TO_K *)
  Definition mcnp_row (ws : list str) (lib : library) : res library :=
    match ws with
    | [] => Ok lib
    | _ =>
      if (length ws <? 7)%nat || (11 <? length ws)%nat then Throw
      else
        let suffix := last (word ws 0) "000"%char in
        if negb (Ascii.eqb suffix "c"%char) && negb (Ascii.eqb suffix "t"%char) then Ok lib
        else
          let! temp := stod (word ws 9) in
          let t := mkTable (word ws 2) (str_eqb (word ws 4) ["2"%char]) (to_kelvin temp) in
          let name := regex_remove rx_ext35 (word ws 0) in
          if Ascii.eqb suffix "c"%char then
            let! za := stoul_of name in
            Ok (mkLib (lib_awr lib) (add_table zaid_eq (zaid_of_number (wrap32 za)) t (lib_neutron lib)) (lib_tsl lib))
          else Ok (mkLib (lib_awr lib) (lib_neutron lib) (add_table str_eqb name t (lib_tsl lib)))
    end.
  Fixpoint mcnp_rows (lines : list (list str)) (lib : library) : res library :=
    match lines with [] => Ok lib | ws :: r => let! lib' := mcnp_row ws lib in mcnp_rows r lib' end.
  Definition MCNPLibrary (awrs : list (zaid * T)) (lines : list (list str)) : res library :=
    let! lib := mcnp_rows lines (mkLib awrs [] []) in
    let lib' := finish_library lib in
    let! _ := list_STNeutron lib' in
    Ok lib'.
End Library.
