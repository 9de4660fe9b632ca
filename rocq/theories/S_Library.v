(** * Specification vocabulary for the library files *)
From Verif Require Import Base M_Ident M_Library.
From Coq Require Import Ascii List. Import ListNotations.
Local Open Scope list_scope.
Local Open Scope Z_scope.

(** A Serpent directory file is a list of rows of nine words *)
Record row := mkRow { c_alias : str; c_zaid : str; c_type : str; c_ZA : str; c_I : str; c_AW : str; c_T : str; c_bin : str; c_path : str }.
Definition row_words (r : row) : list str := [c_alias r; c_zaid r; c_type r; c_ZA r; c_I r; c_AW r; c_T r; c_bin r; c_path r].
Definition words (rows : list row) : list str := flat_map row_words rows.
Definition starts (c : ascii) (s : str) : Prop := exists r, s = c :: r.
(** The rows that name a new table: neutron (type 1) or thermal scattering (type 3) rows whose ZAID identifier has not been seen before *)
Inductive new_rows : list str -> list row -> list row -> Prop :=
| new_nil seen : new_rows seen [] []
| new_other seen r rows k : ~ starts "1"%char (c_type r) -> ~ starts "3"%char (c_type r) -> new_rows seen rows k -> new_rows seen (r :: rows) k
| new_alias seen r rows k : In (c_zaid r) seen -> new_rows seen rows k -> new_rows seen (r :: rows) k
| new_table seen r rows k : starts "1"%char (c_type r) \/ starts "3"%char (c_type r) -> ~ In (c_zaid r) seen -> new_rows (c_zaid r :: seen) rows k -> new_rows seen (r :: rows) (r :: k).
(** the table a row describes *)
Definition describes {T} (stod : str -> res T) (r : row) (t : table) : Prop :=
  t_file t = c_path r /\ (t_binary t = true <-> starts "1"%char (c_bin r)) /\ stod (c_T r) = Ok (t_temp t).

(** a neutron row for atomic number Z and mass number A; a row of thermal scattering data of the material [n] *)
Definition neutron_row (stoul_of : str -> res Z) (Z0 A : Z) (r : row) : bool :=
  match c_type r with c :: _ => Ascii.eqb c "1"%char | [] => false end && match stoul_of (c_ZA r) with Ok n => n =? 1000 * Z0 + A | _ => false end.
(** a request for data within the tolerance, the nearest temperature, and the first one *)
From Coq Require Import Reals.
Definition within (tol T0 t : R) : Prop := (Rabs (T0 - t) <= tol)%R.
Definition nearest_to (T0 : R) (temps : list R) (t : R) : Prop := In t temps /\ forall u, In u temps -> (Rabs (T0 - t) <= Rabs (T0 - u))%R.
