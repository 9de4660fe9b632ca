(** * Model of the text level of MCNPLibrary (src/mcnp_library.cpp 45-149) and SerpentLibrary (src/serpent_library.cpp 44-74) *)
From Verif Require Import Base M_Grid M_Ident M_Library.
From Coq Require Import String Ascii List. Import ListNotations.
Local Open Scope list_scope.
Local Open Scope Z_scope.
Local Open Scope bool_scope.

(** ** More of std::regex (ECMAScript). (X)* for an expression that consumes at least one character, greedy; [fuel] bounds the repetitions *)
Fixpoint rx_rep (fuel : nat) (e : regex) : regex := fun s =>
  match fuel with O => [s] | S m => flat_map (rx_rep m e) (e s) ++ [s] end.
(** (X)+ *)
Definition rx_rep1 (e : regex) : regex := fun s => rx_seq e (rx_rep (length (snd s)) e) s.
(** $ *)
Definition rx_eol : regex := fun s => match snd s with [] => [s] | _ => [] end.
(** [Aa][Bb]...: a word of lower case letters, in any case *)
Definition ci_chr (c x : ascii) : bool := (code x =? code c) || (code x =? code c - 32).
Definition rx_ci (w : str) : regex := fold_right (fun c e => rx_seq (rx_chr (ci_chr c)) e) (fun s => [s]) w.
(** std::regex_search: start and end of the leftmost match *)
Fixpoint find_from (e : regex) (c r : str) : option (position * position) :=
  match e (c, r) with
  | q :: _ => Some ((c, r), q)
  | [] => match r with x :: r' => find_from e (x :: c) r' | [] => None end
  end.
Definition regex_find (e : regex) (s : str) : option (position * position) := find_from e [] s.
(** match.str() *)
Definition match_str (m : position * position) : str := firstn (length (snd (fst m)) - length (snd (snd m))) (snd (fst m)).
(** std::regex_replace, the expression giving for each way to match the text put in its place *)
Fixpoint replace_all (fuel : nat) (e : position -> list (str * position)) (c r : str) : str :=
  match fuel with
  | O => r
  | S m =>
    match e (c, r) with
    | (t, q) :: _ => t ++ replace_all m e (fst q) (snd q)
    | [] => match r with x :: r' => x :: replace_all m e (x :: c) r' | [] => [] end
    end
  end.
Definition regex_replace (e : position -> list (str * position)) (s : str) : str := replace_all (S (length s)) e [] s.
Definition by_ (t : str) (e : regex) : position -> list (str * position) := fun s => map (fun q => (t, q)) (e s).

(** ** characters and pieces *)
Definition is_blank (c : ascii) : bool := code c =? 32.
Definition is_newline (c : ascii) : bool := code c =? 10.
Definition is_dot (c : ascii) : bool := code c =? 46.
(** the pieces between the characters [p]: std::getline until end of file *)
Fixpoint split_at (p : ascii -> bool) (s : str) : list str :=
  match s with
  | [] => [[]]
  | x :: r => if p x then [] :: split_at p r else match split_at p r with l :: t => (x :: l) :: t | [] => [[x]] end
  end.
(** the words separated by white space: stream >> string until end of file *)
Fixpoint words_aux (cur : str) (s : str) : list str :=
  match s with
  | [] => match cur with [] => [] | _ => [rev cur] end
  | x :: r => if is_space x then (match cur with [] => words_aux [] r | _ => rev cur :: words_aux [] r end) else words_aux (x :: cur) r
  end.
Definition words_of (s : str) : list str := words_aux [] s.

(** ** the expressions of mcnp_library.cpp *)
(** 57-59 *)
Definition kw_atomic : str := list_ascii_of_string "atomic".
Definition kw_weight : str := list_ascii_of_string "weight".
Definition kw_ratios : str := list_ascii_of_string "ratios".
Definition kw_datapath : str := list_ascii_of_string "datapath".
Definition kw_directory : str := list_ascii_of_string "directory".
Definition rx_4to6 (p : ascii -> bool) : regex := rx_seq (rx_chr p) (rx_seq (rx_chr p) (rx_seq (rx_chr p) (rx_seq (rx_chr p) (rx_upto 2 p)))).
Definition rx_decimal : regex := rx_seq (rx_plus is_digit) (rx_seq (rx_chr is_dot) (rx_plus is_digit)).
Definition rx_pair : regex := rx_seq (rx_plus is_space) (rx_seq (rx_4to6 is_digit) (rx_seq (rx_plus is_space) rx_decimal)).
Definition rx_awr : regex :=
  rx_seq (rx_ci kw_atomic) (rx_seq (rx_plus is_space) (rx_seq (rx_ci kw_weight) (rx_seq (rx_plus is_space) (rx_seq (rx_ci kw_ratios) (rx_rep1 rx_pair))))).
(** 91-92: the class [ .\u00C0-\u00FF\w/-], one byte per character *)
Definition is_path_char (c : ascii) : bool := is_blank c || is_dot c || ((192 <=? code c) && (code c <=? 255)) || is_word c || (code c =? 47) || (code c =? 45).
Definition is_equals (c : ascii) : bool := code c =? 61.
(** 100-101 *)
Definition rx_datapath_key : regex := rx_seq (rx_ci kw_datapath) (rx_seq (rx_star is_space) (rx_seq (rx_upto 1 is_equals) (rx_star is_space))).
Definition rx_datapath : regex := rx_seq (rx_ci kw_datapath) (rx_seq (rx_star is_space) (rx_seq (rx_upto 1 is_equals) (rx_seq (rx_star is_space) (rx_plus is_path_char)))).
(** 109 *)
Definition rx_directory : regex := rx_ci kw_directory.
(** 119 *)
Definition rx_join : regex := rx_seq (rx_chr is_blank) (rx_seq (rx_chr (fun c => code c =? 43)) (rx_seq (rx_opt (rx_plus is_space)) (rx_chr is_newline))).
(** 141: ^ +| +$|( ) +, replaced by $1, which is empty unless the third alternative matched *)
Definition rx_squeeze : position -> list (str * position) := fun s =>
  by_ [] (rx_seq rx_bol (rx_plus is_blank)) s ++ by_ [] (rx_seq (rx_plus is_blank) rx_eol) s ++ by_ [" "%char] (rx_seq (rx_chr is_blank) (rx_plus is_blank)) s.

(** std::filesystem::path operator/ (186) for POSIX paths *)
Definition is_slash (c : ascii) : bool := code c =? 47.
Definition path_join (d f : str) : str :=
  match f with
  | x :: _ => if is_slash x then f else match d with [] => f | _ => if is_slash (last d "000"%char) then d ++ f else d ++ ("/"%char :: f) end
  | [] => match d with [] => [] | _ => if is_slash (last d "000"%char) then d else d ++ ["/"%char] end
  end.

Section Text.
  Context {T : Type} {N : Num T}.
  Variable stod : str -> res T.
  Variable stoul_of : str -> res Z.
  Variable to_kelvin : T -> T.
  (** 79-86. Every word of the match after the first three is made of digits (and a point), so that operator>> reads whole words *)
  Fixpoint awr_pairs (ws : list str) (m : list (zaid * T)) : res (list (zaid * T)) :=
    match ws with
    | z :: a :: r => let! x := stod a in awr_pairs r (assign zaid_eq (zaid_of_number (wrap32 (stoul z))) x m)
    | _ => Ok m
    end.
  (** 57-87 *)
  Definition read_awrs (text : str) : res (list (zaid * T)) :=
    match regex_find rx_awr text with None => Throw | Some m => awr_pairs (skipn 3 (words_of (match_str m))) [] end.
  (** 91-105; [parent] is the directory of the xsdir file *)
  Definition read_datapath (parent text : str) : str :=
    match regex_find rx_datapath text with None => parent | Some m => regex_remove rx_datapath_key (match_str m) end.
  (** 141-149: the words of a line *)
  Definition line_words (line : str) : list str := match regex_replace rx_squeeze line with [] => [] | l => split_at is_blank l end.
  (** 109-149: the logical lines after the one with the word directory *)
  Definition read_lines (text : str) : res (list (list str)) :=
    match regex_find rx_directory text with
    | None => Throw
    | Some m => Ok (map line_words (tl (split_at is_newline (regex_replace (by_ [" "%char] rx_join) (snd (fst m))))))
    end.
  (** 162, 186 *)
  Definition with_path (d : str) (ws : list str) : list str := match ws with z :: a :: f :: r => z :: a :: path_join d f :: r | _ => ws end.
  (** 45-241 *)
  Definition MCNPLibrary_text (parent text : str) : res (@library T) :=
    let! awrs := read_awrs text in
    let d := read_datapath parent text in
    let! lines := read_lines text in
    MCNPLibrary stod stoul_of to_kelvin awrs (map (with_path d) lines).
  (** serpent_library.cpp 44-136; eofbit is set when the last word is followed by nothing *)
  Definition SerpentLibrary_text (text : str) : res (@library T) :=
    SerpentLibrary stod stoul_of (words_of text) (match text with [] => false | _ => is_space (last text "000"%char) end).
End Text.
