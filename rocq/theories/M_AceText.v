(** * Model of ACE::read_ascii (src/ace.cpp 75-187, 354-373), character by character *)
From Verif Require Import Base M_Grid M_Ident M_AceBin.
From Coq Require Import ZArith List. Import ListNotations.
Local Open Scope list_scope.
Local Open Scope Z_scope.

(** std::ifstream: the characters ahead, eofbit and failbit. Operations on a stream that is not good set failbit and change nothing else. *)
Record tstream := mkTs { ts_bytes : list Z; ts_eof : bool; ts_fail : bool }.
Definition ts_good (s : tstream) : bool := negb (ts_eof s) && negb (ts_fail s).
Definition ts_failed (s : tstream) : tstream := mkTs (ts_bytes s) (ts_eof s) true.
(** istream::read of [n] characters into a string that holds [old] *)
Definition t_read (n : nat) (old : list Z) (s : tstream) : list Z * tstream :=
  if ts_good s then
    if (n <=? length (ts_bytes s))%nat then (firstn n (ts_bytes s), mkTs (skipn n (ts_bytes s)) false false)
    else (ts_bytes s ++ skipn (length (ts_bytes s)) old, mkTs [] true true)
  else (old, ts_failed s).
(** istream::ignore(n): reaching the end sets eofbit only *)
Definition t_ignore (n : nat) (s : tstream) : tstream :=
  if ts_good s then
    if (n <=? length (ts_bytes s))%nat then mkTs (skipn n (ts_bytes s)) false false else mkTs [] true false
  else ts_failed s.
(** istream::peek *)
Definition t_peek (s : tstream) : option Z * tstream :=
  if ts_good s then match ts_bytes s with [] => (None, mkTs [] true false) | b :: _ => (Some b, s) end else (None, ts_failed s).
Definition is_char (c : option Z) (b : Z) : bool := match c with Some x => x =? b | None => false end.
(** 101 = 102 = 131 = 132: the second peek happens only if the first was not a line feed *)
Definition t_newline (s : tstream) : tstream :=
  let '(c, s) := t_peek s in
  if is_char c 10 then t_ignore 1 s
  else let '(c, s) := t_peek s in if is_char c 13 then t_ignore 1 s else s.
(** std::getline into a string that holds [old] *)
Fixpoint line_of (bs : list Z) : list Z * option (list Z) :=
  match bs with
  | [] => ([], None)
  | b :: r => if b =? 10 then ([], Some r) else let '(l, e) := line_of r in (b :: l, e)
  end.
Definition t_getline (old : list Z) (s : tstream) : list Z * tstream :=
  if ts_good s then
    match line_of (ts_bytes s) with
    | (l, Some r) => (l, mkTs r false false)
    | (l, None) => (l, mkTs [] true (match l with [] => true | _ => false end))
    end
  else (old, ts_failed s).

(** ** numbers: operator>> for int and double (C locale), as libstdc++ implements num_get *)
Definition is_space (b : Z) : bool := (b =? 32) || ((9 <=? b) && (b <=? 13)).
Definition is_digit (b : Z) : bool := (48 <=? b) && (b <=? 57).
Definition is_sign (b : Z) : bool := (b =? 43) || (b =? 45).
Fixpoint skip_space (bs : list Z) : list Z := match bs with [] => [] | b :: r => if is_space b then skip_space r else bs end.
Fixpoint span_digits (bs : list Z) : list Z * list Z :=
  match bs with [] => ([], []) | b :: r => if is_digit b then let '(d, q) := span_digits r in (b :: d, q) else ([], bs) end.
Definition take_sign (bs : list Z) : list Z * list Z :=
  match bs with b :: r => if is_sign b then ([b], r) else ([], bs) | [] => ([], []) end.
Definition digits_value (ds : list Z) : Z := fold_left (fun v d => 10 * v + (d - 48)) ds 0.
(** the value stored, whether failbit is set, the characters left; out of range stores the nearest limit, no digits stores 0 *)
Definition scan_int (bs : list Z) : Z * bool * list Z :=
  let '(sg, r) := take_sign bs in
  let '(ds, r) := span_digits r in
  match ds with
  | [] => (0, true, r)
  | _ => let v := match sg with [45] => - digits_value ds | _ => digits_value ds end in
         if v <? - 2 ^ 31 then (- 2 ^ 31, true, r) else if 2 ^ 31 <=? v then (2 ^ 31 - 1, true, r) else (v, false, r)
  end.
(** the characters num_get gathers for a double: digits, one point before the exponent, one e/E after a digit, a sign right after it.
    (libstdc++ drops repeated leading zeros; they are kept here.) *)
Fixpoint gather (mant dec sci : bool) (bs : list Z) : list Z * list Z :=
  match bs with
  | [] => ([], [])
  | b :: r =>
    if is_digit b then let '(t, q) := gather true dec sci r in (b :: t, q)
    else if (b =? 46) && negb dec && negb sci then let '(t, q) := gather mant true sci r in (b :: t, q)
    else if ((b =? 101) || (b =? 69)) && negb sci && mant then
      match r with
      | c :: r' => if is_sign c then let '(t, q) := gather mant dec true r' in (b :: c :: t, q)
                   else let '(t, q) := gather mant dec true r in (b :: t, q)
      | [] => ([b], [])
      end
    else ([], bs)
  end.
Section Text.
  (** strtod on the characters gathered: the double (its 64 bits) and whether the conversion failed; std::stod and std::stoi of a string,
      which throw when there is no number *)
  Variable strtod : list Z -> Z * bool.
  Variable stod : list Z -> res Z.
  Variable stoi : list Z -> res Z.
  Definition scan_double (bs : list Z) : Z * bool * list Z :=
    let '(sg, r) := take_sign bs in
    let '(t, r) := gather false false false r in
    let '(v, bad) := strtod (sg ++ t) in (v, bad, r).
  (** operator>>: skip white space; at the end of the file the variable keeps its value [old] *)
  Definition t_extract (scan : list Z -> Z * bool * list Z) (old : Z) (s : tstream) : Z * tstream :=
    if ts_good s then
      match skip_space (ts_bytes s) with
      | [] => (old, mkTs [] true true)
      | bs => let '(v, bad, r) := scan bs in (v, mkTs r (match r with [] => true | _ => false end) bad)
      end
    else (old, ts_failed s).

  (** 146-152; [junk]: what the uninitialised locals i_zaid and i_awr hold in each pass *)
  Fixpoint t_izaw (k : nat) (junk : nat -> Z * Z) (s : tstream) : list (Z * Z) * tstream :=
    match k with
    | O => ([], s)
    | S m =>
      let '(z, s) := t_extract scan_int (fst (junk k)) s in
      let '(a, s) := t_extract scan_double (snd (junk k)) s in
      let '(r, s) := t_izaw m junk s in ((z, a) :: r, s)
    end.
  (** 155-162; nxs_ and jxs_ are zero-initialised *)
  Fixpoint t_ints (k : nat) (s : tstream) : list Z * tstream :=
    match k with
    | O => ([], s)
    | S m => let '(z, s) := t_extract scan_int 0 s in let '(r, s) := t_ints m s in (z :: r, s)
    end.
  (** 166-170: the values stored in xss_[0], xss_[1], ... by the loop, which counts them *)
  Fixpoint t_xss (n : nat) (s : tstream) : list Z :=
    match n with
    | O => []
    | S m => if ts_eof s then [] else let '(v, s) := t_extract scan_double 0 s in v :: t_xss m s
    end.
  (** 354-373 *)
  Fixpoint split_line_go (line tmp : list Z) : list (list Z) :=
    match line with
    | [] => match tmp with [] => [] | _ => [tmp] end
    | b :: r => if b =? 32 then match tmp with [] => split_line_go r [] | _ => tmp :: split_line_go r [] end else split_line_go r (tmp ++ [b])
    end.
  Definition split_line (line : list Z) : list (list Z) := split_line_go line [].
  (** 141 *)
  Fixpoint skip_lines (n : nat) (line : list Z) (s : tstream) : tstream :=
    match n with O => s | S m => let '(line, s) := t_getline line s in skip_lines m line s end.

  Record header := mkHeader { h_awr : Z; h_temp : Z; h_zaid_txt : list Z; h_date : list Z; h_comment : list Z; h_mat : list Z; h_rest : tstream }.
  (** 97-108 = 127-138, after [skip] characters *)
  Definition dated (awr temp : Z) (zaid_txt : list Z) (s : tstream) : header :=
    let '(date, s) := t_read 10 (repeat 32 10) s in
    let s := t_newline (t_newline s) in
    let '(comment, s) := t_read 70 (repeat 32 70) s in
    let '(mat, s) := t_read 10 (repeat 32 10) s in
    mkHeader awr temp zaid_txt date comment mat s.
  Definition to_kelvin_bits (t : Z) : Z := times (times t MEV_TO_EV_bits) EV_TO_K_bits.
  (** 88-108 *)
  Definition legacy_header (s : tstream) : res header :=
    let '(zaid_txt, s) := t_read 10 (repeat 32 10) s in
    let '(awr_txt, s) := t_read 12 (repeat 32 12) s in
    let '(temp_txt, s) := t_read 12 (repeat 32 12) s in
    let! awr := stod awr_txt in
    let! t := stod temp_txt in
    Ok (dated awr (to_kelvin_bits t) zaid_txt (t_ignore 1 s)).
  (** 110-142; reading a word past the last one is undefined *)
  Definition modern_header (s : tstream) : res header :=
    let '(line, s) := t_getline [] s in
    let '(line, s) := t_getline line s in
    let split := split_line line in
    let! w0 := atZ split 0 in
    let! awr := stod w0 in
    let! w1 := atZ split 1 in
    let! t := stod w1 in
    let! w3 := atZ split 3 in
    let! n_skip := stoi w3 in
    if n_skip =? 2 then
      let '(zaid_txt, s) := t_read 10 (repeat 32 10) s in
      Ok (dated awr (to_kelvin_bits t) zaid_txt (t_ignore 25 s))
    else
      Ok (mkHeader awr (to_kelvin_bits t) (repeat 32 10) (repeat 32 10) (repeat 32 70) (repeat 32 10) (skip_lines (Z.to_nat n_skip) line s)).
  (** 77-82: get, peek and unget leave the stream where it was, unless the file is empty, when failbit stays set *)
  Definition starts_modern (bytes : list Z) : bool := match bytes with 50 :: 46 :: _ => true | _ => false end.
  Definition at_start (bytes : list Z) : tstream := mkTs bytes false (match bytes with [] => true | _ => false end).
  (** 144-186: everything after the header; resize with a negative length throws *)
  Definition read_body (junk : nat -> Z * Z) (h : header) : res acefile :=
    let '(izaw, s) := t_izaw 16 junk (h_rest h) in
    let '(nxs, s) := t_ints 16 s in
    let '(jxs, s) := t_ints 32 s in
    let n := nth 0 nxs 0 in
    if n <? 0 then Throw
    else
      let xss := t_xss (Z.to_nat n) s in
      if negb (sizeZ xss =? n) then Throw
      else
        let za := nth 1 nxs 0 mod 2 ^ 32 in
        let Z0 := (za / 1000) mod 256 in
        Ok (mkFile (mkZaid Z0 (wrap32 (za - Z0 * 1000))) (h_temp h) (h_awr h) (0 <? nth 1 jxs 0) (h_zaid_txt h) (h_date h) (h_comment h) (h_mat h) izaw nxs jxs xss).
  (** 75-187 with the initial values of 37-50 *)
  Definition read_ascii (junk : nat -> Z * Z) (bytes : list Z) : res acefile :=
    let! h := if starts_modern bytes then modern_header (at_start bytes) else legacy_header (at_start bytes) in
    read_body junk h.
End Text.
