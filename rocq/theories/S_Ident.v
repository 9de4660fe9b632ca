(** * Specification vocabulary for elements, isotopes and nuclides, independent of the model *)
From Coq Require Import ZArith String Ascii List. Import ListNotations.
Local Open Scope list_scope.
Local Open Scope Z_scope.

(** white space: tab, newline, vertical tab, form feed, carriage return, space *)
Definition blank (c : ascii) : Prop := In (nat_of_ascii c) [9; 10; 11; 12; 13; 32]%nat.
Definition blanks (w : list ascii) : Prop := forall c, In c w -> blank c.

(** [denotes w v]: [w] is a non-empty string of decimal digits (leading zeros allowed) and [v] the number it stands for *)
Inductive denotes : list ascii -> Z -> Prop :=
| denotes_digit d : (d < 10)%nat -> denotes [ascii_of_nat (48 + d)] (Z.of_nat d)
| denotes_more w v d : denotes w v -> (d < 10)%nat -> denotes (w ++ [ascii_of_nat (48 + d)]) (10 * v + Z.of_nat d).

(** the symbols and (American English) names of the elements 1 to 118 *)
Definition standard_symbols : list string :=
  ["H"; "He"; "Li"; "Be"; "B"; "C"; "N"; "O"; "F"; "Ne"; "Na"; "Mg"; "Al"; "Si"; "P"; "S"; "Cl"; "Ar"; "K"; "Ca"; "Sc"; "Ti"; "V"; "Cr"; "Mn";
   "Fe"; "Co"; "Ni"; "Cu"; "Zn"; "Ga"; "Ge"; "As"; "Se"; "Br"; "Kr"; "Rb"; "Sr"; "Y"; "Zr"; "Nb"; "Mo"; "Tc"; "Ru"; "Rh"; "Pd"; "Ag"; "Cd"; "In";
   "Sn"; "Sb"; "Te"; "I"; "Xe"; "Cs"; "Ba"; "La"; "Ce"; "Pr"; "Nd"; "Pm"; "Sm"; "Eu"; "Gd"; "Tb"; "Dy"; "Ho"; "Er"; "Tm"; "Yb"; "Lu"; "Hf"; "Ta";
   "W"; "Re"; "Os"; "Ir"; "Pt"; "Au"; "Hg"; "Tl"; "Pb"; "Bi"; "Po"; "At"; "Rn"; "Fr"; "Ra"; "Ac"; "Th"; "Pa"; "U"; "Np"; "Pu"; "Am"; "Cm"; "Bk";
   "Cf"; "Es"; "Fm"; "Md"; "No"; "Lr"; "Rf"; "Db"; "Sg"; "Bh"; "Hs"; "Mt"; "Ds"; "Rg"; "Cn"; "Nh"; "Fl"; "Mc"; "Lv"; "Ts"; "Og"]%string.
Definition standard_names : list string :=
  ["Hydrogen"; "Helium"; "Lithium"; "Beryllium"; "Boron"; "Carbon"; "Nitrogen"; "Oxygen"; "Fluorine"; "Neon"; "Sodium"; "Magnesium"; "Aluminum";
   "Silicon"; "Phosphorus"; "Sulfur"; "Chlorine"; "Argon"; "Potassium"; "Calcium"; "Scandium"; "Titanium"; "Vanadium"; "Chromium"; "Manganese";
   "Iron"; "Cobalt"; "Nickel"; "Copper"; "Zinc"; "Gallium"; "Germanium"; "Arsenic"; "Selenium"; "Bromine"; "Krypton"; "Rubidium"; "Strontium";
   "Yttrium"; "Zirconium"; "Niobium"; "Molybdenum"; "Technetium"; "Ruthenium"; "Rhodium"; "Palladium"; "Silver"; "Cadmium"; "Indium"; "Tin";
   "Antimony"; "Tellurium"; "Iodine"; "Xenon"; "Cesium"; "Barium"; "Lanthanum"; "Cerium"; "Praseodymium"; "Neodymium"; "Promethium"; "Samarium";
   "Europium"; "Gadolinium"; "Terbium"; "Dysprosium"; "Holmium"; "Erbium"; "Thulium"; "Ytterbium"; "Lutetium"; "Hafnium"; "Tantalum"; "Tungsten";
   "Rhenium"; "Osmium"; "Iridium"; "Platinum"; "Gold"; "Mercury"; "Thallium"; "Lead"; "Bismuth"; "Polonium"; "Astatine"; "Radon"; "Francium";
   "Radium"; "Actinium"; "Thorium"; "Protactinium"; "Uranium"; "Neptunium"; "Plutonium"; "Americium"; "Curium"; "Berkelium"; "Californium";
   "Einsteinium"; "Fermium"; "Mendelevium"; "Nobelium"; "Lawrencium"; "Rutherfordium"; "Dubnium"; "Seaborgium"; "Bohrium"; "Hassium";
   "Meitnerium"; "Darmstadtium"; "Roentgenium"; "Copernicium"; "Nihonium"; "Flerovium"; "Moscovium"; "Livermorium"; "Tennessine"; "Oganesson"]%string.
(** symbol and name of element Z *)
Definition std_symbol (Z0 : Z) : list ascii := list_ascii_of_string (nth (Z.to_nat (Z0 - 1)) standard_symbols ""%string).
Definition std_name (Z0 : Z) : list ascii := list_ascii_of_string (nth (Z.to_nat (Z0 - 1)) standard_names ""%string).

(** the isomeric suffixes and the levels they denote *)
Definition suffix_level (m : list ascii) (level : Z) : Prop :=
  m = [] /\ level = 0 \/ m = ["m"; "0"]%char /\ level = 0 \/ m = ["m"; "1"]%char /\ level = 1 \/ m = ["m"; "2"]%char /\ level = 2.

(** boolean comparison functions forming a strict total order whose equality is [eqb] and Leibniz equality *)
Definition total_order {A} (P : A -> Prop) (eqb ltb : A -> A -> bool) : Prop :=
  (forall a b, P a -> P b -> eqb a b = true <-> a = b) /\
  (forall a, P a -> ltb a a = false) /\
  (forall a b c, P a -> P b -> P c -> ltb a b = true -> ltb b c = true -> ltb a c = true) /\
  (forall a b, P a -> P b -> ltb a b = true \/ eqb a b = true \/ ltb b a = true).
