(** * Models of zaid.hpp, element.hpp/.cpp, isotope.hpp and nuclide.hpp, with the part of std::regex (ECMAScript) they use *)
From Verif Require Import Base M_Grid.
From Coq Require Import String Ascii List. Import ListNotations.
Local Open Scope list_scope.
Local Open Scope Z_scope.
Local Open Scope bool_scope.

(** ** Strings are lists of bytes; character classes in the "C" locale *)
Notation str := (list ascii).
Definition code (c : ascii) : Z := Z.of_N (N_of_ascii c).
Definition is_upper (c : ascii) : bool := (65 <=? code c) && (code c <=? 90).
Definition is_lower (c : ascii) : bool := (97 <=? code c) && (code c <=? 122).
Definition is_digit (c : ascii) : bool := (48 <=? code c) && (code c <=? 57).
(** \s: space, \t, \n, \v, \f, \r *)
Definition is_space (c : ascii) : bool := ((9 <=? code c) && (code c <=? 13)) || (code c =? 32).
(** \w, for \b *)
Definition is_word (c : ascii) : bool := is_upper c || is_lower c || is_digit c || (code c =? 95).
Fixpoint str_eqb (a b : str) : bool :=
  match a, b with
  | [], [] => true
  | x :: a', y :: b' => (Ascii.eqb x y && str_eqb a' b')%bool
  | _, _ => false
  end.

(** ** Regular expressions: a position is the reversed prefix already read and the remaining text; an expression maps a
    position to the positions it can end at, in the order in which a backtracking ECMAScript matcher tries them *)
Notation position := (list ascii * list ascii)%type.
Notation regex := (list ascii * list ascii -> list (list ascii * list ascii)).
Definition rx_chr (p : ascii -> bool) : regex := fun s =>
  match snd s with x :: r => if p x then [(x :: fst s, r)] else [] | [] => [] end.
Definition rx_seq (a b : regex) : regex := fun s => flat_map b (a s).
(** (X)? greedy *)
Definition rx_opt (a : regex) : regex := fun s => a s ++ [s].
(** X* and X+ for a character class, greedy *)
Fixpoint rx_star_aux (p : ascii -> bool) (c r : str) : list position :=
  match r with
  | x :: r' => if p x then rx_star_aux p (x :: c) r' ++ [(c, r)] else [(c, r)]
  | [] => [(c, r)]
  end.
Definition rx_star (p : ascii -> bool) : regex := fun s => rx_star_aux p (fst s) (snd s).
Definition rx_plus (p : ascii -> bool) : regex := rx_seq (rx_chr p) (rx_star p).
(** X{0,n} and X{1,n+1} for a character class, greedy *)
Fixpoint rx_upto (n : nat) (p : ascii -> bool) : regex :=
  match n with O => fun s => [s] | S m => rx_opt (rx_seq (rx_chr p) (rx_upto m p)) end.
Definition rx_from1 (n : nat) (p : ascii -> bool) : regex := rx_seq (rx_chr p) (rx_upto n p).
(** ^ and \b *)
Definition rx_bol : regex := fun s => match fst s with [] => [s] | _ => [] end.
Definition word_at (o : str) : bool := match o with c :: _ => is_word c | [] => false end.
Definition rx_wordb : regex := fun s => if Bool.eqb (word_at (fst s)) (word_at (snd s)) then [] else [s].
(** std::regex_match: the whole text *)
Definition regex_match (e : regex) (s : str) : bool := existsb (fun q => match snd q with [] => true | _ => false end) (e ([], s)).
(** std::regex_search, match[0]: the preferred match at the leftmost position where there is one; a failed search leaves
    match[0] empty *)
Fixpoint search_from (e : regex) (c r : str) : str :=
  match e (c, r) with
  | q :: _ => firstn (length r - length (snd q)) r
  | [] => match r with x :: r' => search_from e (x :: c) r' | [] => [] end
  end.
Definition regex_search (e : regex) (s : str) : str := search_from e [] s.
(** std::regex_replace(s, e, ""): all successive (non-empty) matches are removed; [fuel] bounds the steps *)
Fixpoint remove_all (fuel : nat) (e : regex) (c r : str) : str :=
  match fuel with
  | O => r
  | S m =>
    match e (c, r) with
    | q :: _ => remove_all m e (fst q) (snd q)
    | [] => match r with x :: r' => x :: remove_all m e (x :: c) r' | [] => [] end
    end
  end.
Definition regex_remove (e : regex) (s : str) : str := remove_all (S (length s)) e [] s.

(** std::to_string of an unsigned number and std::stoul of a digit string *)
Definition digit (d : Z) : ascii := ascii_of_N (Z.to_N (48 + d)).
Fixpoint to_string_aux (fuel : nat) (n : Z) (acc : str) : str :=
  match fuel with
  | O => acc
  | S m => if n <? 10 then digit n :: acc else to_string_aux m (n / 10) (digit (n mod 10) :: acc)
  end.
Definition to_string (n : Z) : str := to_string_aux (S (Z.to_nat n)) n [].
Definition stoul (s : str) : Z := fold_left (fun v c => 10 * v + (code c - 48)) s 0.

(** ** zaid.hpp 40-90; Z is uint8_t, A is uint32_t *)
Record zaid := mkZaid { za_Z : Z; za_A : Z }.
(** zaid.hpp 61: 1000 * Z_ + A_ in uint32_t *)
Definition zaid_number (z : zaid) : Z := wrap32 (1000 * za_Z z + za_A z).
(** zaid.hpp 66-68 *)
Definition zaid_eq (a b : zaid) : bool := (za_Z a =? za_Z b) && (za_A a =? za_A b).
(** zaid.hpp 76-85 *)
Definition zaid_lt (a b : zaid) : bool :=
  if za_Z a <? za_Z b then true else if za_Z b <? za_Z a then false else if za_A a <? za_A b then true else false.
(** zaid.hpp 99-105; [h] is std::hash<uint32_t> *)
Definition zaid_hash (h : Z -> Z) (z : zaid) : Z := h (zaid_number z).

(** ** element.hpp 126-135, element.cpp 76-194 *)
Record info := mkInfo { i_name : string; i_symbol : string; i_largest : Z }.
Definition elements_table : list info :=
  [mkInfo "Hydrogen" "H" 7; mkInfo "Helium" "He" 10; mkInfo "Lithium" "Li" 13; mkInfo "Beryllium" "Be" 16;
   mkInfo "Boron" "B" 21; mkInfo "Carbon" "C" 23; mkInfo "Nitrogen" "N" 25; mkInfo "Oxygen" "O" 28;
   mkInfo "Flourine" "F" 31; mkInfo "Neon" "Ne" 34; mkInfo "Sodium" "Na" 37; mkInfo "Magnesium" "Mg" 40;
   mkInfo "Aluminum" "Al" 43; mkInfo "Silicon" "Si" 45; mkInfo "Phosphorus" "P" 47; mkInfo "Sulfur" "S" 49;
   mkInfo "Chlorine" "Cl" 51; mkInfo "Argon" "Ar" 53; mkInfo "Potassium" "K" 56; mkInfo "Calcium" "Ca" 58;
   mkInfo "Scandium" "Sc" 61; mkInfo "Titanium" "Ti" 63; mkInfo "Vanadium" "V" 66; mkInfo "Chromium" "Cr" 68;
   mkInfo "Manganese" "Mn" 71; mkInfo "Iron" "Fe" 74; mkInfo "Cobalt" "Co" 76; mkInfo "Nickel" "Ni" 79;
   mkInfo "Copper" "Cu" 82; mkInfo "Zinc" "Zn" 85; mkInfo "Gallium" "Ga" 87; mkInfo "Germanium" "Ge" 90;
   mkInfo "Arsenic" "As" 92; mkInfo "Selenium" "Se" 95; mkInfo "Bromine" "Br" 98; mkInfo "Krypton" "Kr" 101;
   mkInfo "Rubidium" "Rb" 103; mkInfo "Strontium" "Sr" 107; mkInfo "Yttrium" "Y" 109; mkInfo "Zirconium" "Zr" 112;
   mkInfo "Niobium" "Nb" 115; mkInfo "Molbdenum" "Mo" 117; mkInfo "Technetium" "Tc" 120; mkInfo "Ruthenium" "Ru" 124;
   mkInfo "Rhodium" "Rh" 126; mkInfo "Palladium" "Pd" 128; mkInfo "Silver" "Ag" 130; mkInfo "Cadmium" "Cd" 133;
   mkInfo "Indium" "In" 135; mkInfo "Tin" "Sn" 138; mkInfo "Antimony" "Sb" 140; mkInfo "Tellurium" "Te" 143;
   mkInfo "Iodine" "I" 145; mkInfo "Xenon" "Xe" 148; mkInfo "Cesium" "Cs" 151; mkInfo "Barium" "Ba" 153;
   mkInfo "Lanthanum" "La" 155; mkInfo "Cerium" "Ce" 157; mkInfo "Praseodymium" "Pr" 159; mkInfo "Neodymium" "Nd" 161;
   mkInfo "Promethium" "Pm" 163; mkInfo "Samarium" "Sm" 165; mkInfo "Europium" "Eu" 167; mkInfo "Gadolinium" "Gd" 169;
   mkInfo "Terbium" "Tb" 171; mkInfo "Dysprosium" "Dy" 173; mkInfo "Holmium" "Ho" 175; mkInfo "Erbium" "Er" 177;
   mkInfo "Thulium" "Tm" 179; mkInfo "Ytterbium" "Yb" 181; mkInfo "Lutetium" "Lu" 185; mkInfo "Hafnium" "Hf" 189;
   mkInfo "Tantalum" "Ta" 192; mkInfo "Tungsten" "W" 194; mkInfo "Rhenium" "Re" 198; mkInfo "Osmium" "Os" 202;
   mkInfo "Iridium" "Ir" 204; mkInfo "Platinum" "Pt" 206; mkInfo "Gold" "Au" 210; mkInfo "Mercury" "Hg" 216;
   mkInfo "Thallium" "Tl" 218; mkInfo "Lead" "Pb" 220; mkInfo "Bismuth" "Bi" 224; mkInfo "Polonium" "Po" 227;
   mkInfo "Astatine" "At" 229; mkInfo "Radon" "Rn" 231; mkInfo "Francium" "Fr" 233; mkInfo "Radium" "Ra" 235;
   mkInfo "Actinium" "Ac" 237; mkInfo "Thorium" "Th" 239; mkInfo "Protactinium" "Pa" 241; mkInfo "Uranium" "U" 243;
   mkInfo "Neptunium" "Np" 245; mkInfo "Plutonium" "Pu" 247; mkInfo "Americium" "Am" 249; mkInfo "Curium" "Cm" 252;
   mkInfo "Berkelium" "Bk" 254; mkInfo "Californium" "Cf" 256; mkInfo "Einsteinium" "Es" 258; mkInfo "Fermium" "Fm" 260;
   mkInfo "Mendelevium" "Md" 262; mkInfo "Nobelium" "No" 264; mkInfo "Lawrencium" "Lr" 266; mkInfo "Rutherfordium" "Rf" 268;
   mkInfo "Dubnium" "Db" 270; mkInfo "Seaborgium" "Sg" 273; mkInfo "Bohrium" "Bh" 275; mkInfo "Hassium" "Hs" 277;
   mkInfo "Meitnerium" "Mt" 279; mkInfo "Darmstadtium" "Ds" 281; mkInfo "Roentgenium" "Rg" 283; mkInfo "Copernicium" "Cn" 285;
   mkInfo "Nihonium" "Nh" 287; mkInfo "Flerovium" "Fl" 289; mkInfo "Moscovium" "Mc" 291; mkInfo "Livermorium" "Lv" 293;
   mkInfo "Tennessine" "Ts" 294; mkInfo "Oganesson" "Og" 295]%string.
Definition N_ELEM : Z := 118.
(** An Element is its atomic number. element.hpp 49-57 and 62-70 *)
Definition make_element (Z0 : Z) : res Z := if (Z0 =? 0) || (N_ELEM <? Z0) then Throw else Ok Z0.
Definition make_element_zaid (z : zaid) : res Z := make_element (za_Z z).
Definition entry (Z0 : Z) : info := nth (Z.to_nat (Z0 - 1)) elements_table (mkInfo "" "" 0).
(** element.hpp 91-107 *)
Definition element_symbol (Z0 : Z) : str := list_ascii_of_string (i_symbol (entry Z0)).
Definition element_name (Z0 : Z) : str := list_ascii_of_string (i_name (entry Z0)).
Definition largest_isotope (Z0 : Z) : Z := i_largest (entry Z0).
(** element.hpp 112 *)
Definition element_zaid (Z0 : Z) : zaid := mkZaid Z0 0.
(** the loops element.cpp 40-45 and 57-62: index of the first entry whose [f] equals [s] *)
Fixpoint find_entry (f : info -> string) (s : str) (l : list info) (k : Z) : option Z :=
  match l with
  | [] => None
  | e :: t => if str_eqb (list_ascii_of_string (f e)) s then Some k else find_entry f s t (k + 1)
  end.
(** the expressions of element.cpp 33, 35, 49, 52 *)
Definition rx_lead : regex := rx_opt (rx_seq rx_bol (rx_plus is_space)).
Definition rx_trail : regex := rx_opt (rx_plus is_space).
Definition rx_element : regex := rx_seq (rx_chr is_upper) (rx_upto 1 is_lower).
Definition rx_name : regex := rx_seq (rx_chr is_upper) (rx_plus is_lower).
Definition rx_is_element : regex := rx_seq rx_lead (rx_seq rx_element rx_trail).
Definition rx_is_name : regex := rx_seq rx_lead (rx_seq rx_wordb (rx_seq rx_name (rx_seq rx_wordb rx_trail))).
(** element.cpp 29-74 *)
Definition element_of_string (s : str) : res Z :=
  let by_symbol := if regex_match rx_is_element s then find_entry i_symbol (regex_search rx_element s) elements_table 0 else None in
  let found := match by_symbol with
               | Some k => Some k
               | None => if regex_match rx_is_name s then find_entry i_name (regex_search rx_name s) elements_table 0 else None
               end in
  match found with Some k => Ok (k + 1) | None => Throw end.
(** element.hpp 117-123, 145-151 *)
Definition element_eq (a b : Z) : bool := a =? b.
Definition element_lt (a b : Z) : bool := a <? b.
Definition element_hash (h : Z -> Z) (e : Z) : Z := h e.

(** ** isotope.hpp 248-250 *)
Record isotope := mkIso { is_Z : Z; is_A : Z }.
(** isotope.hpp 53-70, 78-95, 106-123, 163-180 *)
Definition check_isotope (e A : Z) : res isotope := if A <? e then Throw else if 300 <=? A then Throw else Ok (mkIso e A).
(** isotope.hpp 77-100, 105-128 *)
Definition make_isotope (Z0 A : Z) : res isotope := let! e := make_element Z0 in check_isotope e A.
Definition make_isotope_zaid (z : zaid) : res isotope := let! e := make_element_zaid z in check_isotope e (za_A z).
(** isotope.hpp 136, 158 *)
Definition rx_iso : regex := rx_seq (rx_chr is_upper) (rx_seq (rx_upto 1 is_lower) (rx_from1 2 is_digit)).
Definition rx_is_iso : regex := rx_seq rx_lead (rx_seq rx_iso rx_trail).
Definition rx_mass : regex := rx_from1 2 is_digit.
(** isotope.hpp 134-181 *)
Definition isotope_of_string (s : str) : res isotope :=
  if regex_match rx_is_iso s then
    let! e := element_of_string (regex_search rx_element s) in
    check_isotope e (stoul (regex_search rx_mass s))
  else Throw.
(** isotope.hpp 206-211 *)
Definition isotope_zaid (i : isotope) : zaid := mkZaid (is_Z i) (is_A i).
Definition isotope_symbol (i : isotope) : str := element_symbol (is_Z i) ++ to_string (is_A i).
(** isotope.hpp 226-246, 260-266 *)
Definition isotope_eq (a b : isotope) : bool := if (is_Z a =? is_Z b) && (is_A a =? is_A b) then true else false.
Definition isotope_lt (a b : isotope) : bool :=
  if is_Z a <? is_Z b then true else if is_Z b <? is_Z a then false else if is_A a <? is_A b then true else false.
Definition isotope_hash (h : Z -> Z) (i : isotope) : Z := h (wrap32 (is_Z i * 1000 + is_A i)).

(** ** nuclide.hpp 266-268; level_ is uint8_t *)
Record nuclide := mkNuc { nu_iso : isotope; nu_level : Z }.
(** nuclide.hpp 53-62, 69-82 *)
Definition make_nuclide_iso (i : isotope) (level : Z) : res nuclide := if 2 <? level then Throw else Ok (mkNuc i level).
Definition make_nuclide (Z0 A level : Z) : res nuclide :=
  let! i := make_isotope Z0 A in make_nuclide_iso i level.
(** the loop nuclide.hpp 105-108; A_ is uint32_t, level_ is uint8_t; [fuel] bounds the iterations *)
Fixpoint decode_loop (fuel : nat) (largest A level : Z) : res (Z * Z) :=
  if (largest <? A) && (100 <? A) then
    match fuel with O => NoDraw | S m => decode_loop m largest (A - 100) ((level + 1) mod 256) end
  else Ok (A, level).
(** nuclide.hpp 87-127 *)
Definition nuclide_of_zaid (z : zaid) : res nuclide :=
  let A := za_A z in
  let! el := make_element (za_Z z) in
  let! Al := (if 300 <? A then
                let A' := wrap32 (A - 400) in
                let! Al := decode_loop (Z.to_nat A') (largest_isotope el) A' 1 in
                if largest_isotope el <? fst Al then Throw else Ok Al
              else Ok (A, 0)) in
  let! i := make_isotope (za_Z z) (fst Al) in
  Ok (mkNuc i (snd Al)).
(** nuclide.hpp 137, 160 *)
Definition is_m (c : ascii) : bool := code c =? 109.
Definition is_012 (c : ascii) : bool := (48 <=? code c) && (code c <=? 50).
Definition rx_isomer : regex := rx_seq (rx_chr is_m) (rx_chr is_012).
Definition rx_is_nuc : regex := rx_seq rx_lead (rx_seq rx_iso (rx_seq (rx_opt rx_isomer) rx_trail)).
(** nuclide.hpp 135-168 *)
Definition nuclide_of_string (s : str) : res nuclide :=
  if regex_match rx_is_nuc s then
    let! i := isotope_of_string (regex_search rx_iso s) in
    match regex_search rx_isomer (regex_remove rx_iso s) with
    | [] => Ok (mkNuc i 0)
    | _ :: d => Ok (mkNuc i (stoul d))
    end
  else Throw.
(** nuclide.hpp 198-216 *)
Definition nuclide_zaid (n : nuclide) : zaid :=
  mkZaid (is_Z (nu_iso n)) (if 0 <? nu_level n then wrap32 (is_A (nu_iso n) + 300 + nu_level n * 100) else is_A (nu_iso n)).
Definition nuclide_symbol (n : nuclide) : str :=
  isotope_symbol (nu_iso n) ++ (if 0 <? nu_level n then "m"%char :: to_string (nu_level n) else []).
(** nuclide.hpp 238-264, 278-289 *)
Definition nuclide_eq (a b : nuclide) : bool :=
  if (is_Z (nu_iso a) =? is_Z (nu_iso b)) && (is_A (nu_iso a) =? is_A (nu_iso b)) && (nu_level a =? nu_level b) then true else false.
Definition nuclide_lt (a b : nuclide) : bool :=
  if is_Z (nu_iso a) <? is_Z (nu_iso b) then true
  else if is_Z (nu_iso b) <? is_Z (nu_iso a) then false
  else if is_A (nu_iso a) <? is_A (nu_iso b) then true
  else if is_A (nu_iso b) <? is_A (nu_iso a) then false
  else if nu_level a <? nu_level b then true else false.
Definition nuclide_hash (h : Z -> Z) (n : nuclide) : Z :=
  h (wrap32 (is_Z (nu_iso n) * 1000 + (if 0 <? nu_level n then wrap32 (is_A (nu_iso n) + 300 + nu_level n * 100) else is_A (nu_iso n)))).
