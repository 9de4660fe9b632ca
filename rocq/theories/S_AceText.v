(** * Specification vocabulary for ASCII ACE files (C84): what a file looks like, independently of the reader *)
From Verif Require Import Base M_AceBin S_AceBin.
From Coq Require Import ZArith List. Import ListNotations.
Local Open Scope Z_scope.

(** characters are their codes *)
Definition white (b : Z) : Prop := In b [9; 10; 11; 12; 13; 32].
Definition digit (b : Z) : Prop := 48 <= b <= 57.
Definition gap (l : list Z) : Prop := l <> [] /\ Forall white l.
(** nothing, or white space, follows *)
Definition ends (t : list Z) : Prop := match t with [] => True | b :: _ => white b end.
Definition sign_opt (sg : list Z) : Prop := sg = [] \/ sg = [43] \/ sg = [45].
Fixpoint decimal (ds : list Z) : Z := match ds with [] => 0 | d :: r => (d - 48) * 10 ^ Z.of_nat (length r) + decimal r end.
(** the text of a 32-bit integer *)
Definition int_text (w : list Z) (v : Z) : Prop :=
  is_int32 v /\ exists sg ds, sign_opt sg /\ ds <> [] /\ Forall digit ds /\ w = sg ++ ds /\ (v = decimal ds /\ sg <> [45] \/ v = - decimal ds /\ sg = [45]).
(** the text of a floating-point number: sign, digits with an optional point, optional exponent *)
Definition float_text (w : list Z) : Prop :=
  exists sg ip fp ex, sign_opt sg /\ Forall digit ip /\ (fp = [] \/ exists f, fp = 46 :: f /\ Forall digit f) /\ (exists b, In b (ip ++ fp) /\ digit b) /\
    (ex = [] \/ exists e s d, (e = 101 \/ e = 69) /\ sign_opt s /\ Forall digit d /\ ex = e :: s ++ d) /\ w = sg ++ ip ++ fp ++ ex.
(** a list of values, each preceded by white space *)
Inductive written {V} (P : list Z -> V -> Prop) : list V -> list Z -> Prop :=
| w_nil : written P [] []
| w_cons : forall v vs g w t, gap g -> P w v -> written P vs t -> written P (v :: vs) (g ++ w ++ t).

Section Numbers.
  Variable strtod : list Z -> Z * bool.
  Definition double_text (w : list Z) (v : Z) : Prop := float_text w /\ strtod w = (v, false).
  Definition pair_text (w : list Z) (p : Z * Z) : Prop := exists w1 g w2, int_text w1 (fst p) /\ gap g /\ double_text w2 (snd p) /\ w = w1 ++ g ++ w2.
  (** the numbers of a file: IZAW, NXS, JXS and then [t] *)
  Definition arrays (izaw : list (Z * Z)) (nxs jxs : list Z) (b : list Z) : Prop :=
    length izaw = 16%nat /\ length nxs = 16%nat /\ length jxs = 32%nat /\
    exists t1 t2 t3, written pair_text izaw t1 /\ written int_text nxs t2 /\ written int_text jxs t3 /\ b = t1 ++ t2 ++ t3.
End Numbers.

(** the line ends after the date: LF or CR LF *)
Definition line_end (nl : list Z) : Prop := nl = [10] \/ nl = [13; 10].
Definition plain (l : list Z) : Prop := match l with [] => True | b :: _ => b <> 10 /\ b <> 13 end.
Definition no_space (w : list Z) : Prop := w <> [] /\ ~ In 32 w.
Definition spaces (g : list Z) : Prop := Forall (eq 32) g.

(** ** headers *)
Record texts := mkTexts { x_awr : list Z; x_temp : list Z; x_zaid : list Z; x_date : list Z; x_comment : list Z; x_mat : list Z }.
Definition blank_texts (awr temp : list Z) : texts := mkTexts awr temp (repeat 32 10) (repeat 32 10) (repeat 32 70) (repeat 32 10).
(** fixed columns: date, line end, comment, material *)
Definition dated_text (x : texts) (b : list Z) : Prop :=
  length (x_date x) = 10%nat /\ length (x_comment x) = 70%nat /\ length (x_mat x) = 10%nat /\ plain (x_comment x) /\
  exists nl, line_end nl /\ b = x_date x ++ nl ++ x_comment x ++ x_mat x.
(** words separated by spaces; the weight ratio is the first, the temperature the second, the number of lines to skip the fourth *)
Definition second_line (awr temp skip l : list Z) : Prop :=
  exists s0 s1 w s2 s3 r, spaces s0 /\ spaces s1 /\ s1 <> [] /\ spaces s2 /\ s2 <> [] /\ spaces s3 /\ s3 <> [] /\
    no_space awr /\ no_space temp /\ no_space w /\ no_space skip /\ (r = [] \/ exists r', r = 32 :: r') /\
    l = s0 ++ awr ++ s1 ++ temp ++ s2 ++ w ++ s3 ++ skip ++ r.
Definition a_line (l : list Z) : Prop := exists m, ~ In 10 m /\ l = m ++ [10].
Section Headers.
  Variable stoi : list Z -> res Z.
  Inductive head_text : texts -> list Z -> Prop :=
  | legacy : forall x sp d, length (x_zaid x) = 10%nat -> length (x_awr x) = 12%nat -> length (x_temp x) = 12%nat -> length sp = 1%nat ->
      ~ (nth 0 (x_zaid x) 0 = 50 /\ nth 1 (x_zaid x) 0 = 46) -> dated_text x d -> head_text x (x_zaid x ++ x_awr x ++ x_temp x ++ sp ++ d)
  | modern_with_legacy : forall x l1 skip l2 junk d, ~ In 10 l1 -> ~ In 10 l2 -> second_line (x_awr x) (x_temp x) skip l2 -> stoi skip = Ok 2 ->
      length (x_zaid x) = 10%nat -> length junk = 25%nat -> dated_text x d ->
      head_text x (50 :: 46 :: l1 ++ [10] ++ l2 ++ [10] ++ x_zaid x ++ junk ++ d)
  | modern_plain : forall awr temp l1 skip l2 ls, ~ In 10 l1 -> ~ In 10 l2 -> second_line awr temp skip l2 -> stoi skip = Ok (Z.of_nat (length ls)) ->
      length ls <> 2%nat -> Forall a_line ls ->
      head_text (blank_texts awr temp) (50 :: 46 :: l1 ++ [10] ++ l2 ++ [10] ++ concat ls).
End Headers.
