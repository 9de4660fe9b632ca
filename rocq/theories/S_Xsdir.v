(** * Specification vocabulary for the text of an MCNP xsdir file and of a Serpent xsdata file (C86): what the text looks like, independently of the reader *)
From Coq Require Import ZArith String Ascii List. Import ListNotations.
From Verif Require Import S_Ident.
Local Open Scope list_scope.
Local Open Scope Z_scope.
Notation text := (list ascii).
Definition txt (s : string) : text := list_ascii_of_string s.
Definition nl : ascii := "010"%char.
Definition spaces (n : nat) : text := repeat " "%char n.
(** [u] is the lower case word [w], each letter in lower or upper case *)
Definition spells (w u : text) : Prop := Forall2 (fun c x => x = c \/ (nat_of_ascii x + 32 = nat_of_ascii c)%nat) w u.
(** the word [w] stands, in any case, at the beginning of the text *)
Definition begins (w : text) (t : text) : Prop := exists u v, t = u ++ v /\ spells w u.
(** in pre ++ rest, the word [w] begins nowhere before [rest] *)
Definition not_before (w pre rest : text) : Prop := forall a b, pre = a ++ b -> b <> [] -> ~ begins w (b ++ rest).
Definition nowhere (w t : text) : Prop := forall a b, t = a ++ b -> ~ begins w b.
Definition gap (w : text) : Prop := w <> [] /\ blanks w.
Definition digits (w : text) : Prop := w <> [] /\ forall c, In c w -> (48 <= nat_of_ascii c <= 57)%nat.
Definition starts_with_digit (t : text) : Prop := exists c r, t = c :: r /\ (48 <= nat_of_ascii c <= 57)%nat.

(** ** atomic weight ratios: pairs of a ZAID of four to six digits and a decimal fraction *)
Record awr_pair := mkPair { p_gap1 : text; p_zaid : text; p_gap2 : text; p_int : text; p_frac : text }.
Definition p_value (p : awr_pair) : text := p_int p ++ "."%char :: p_frac p.
Definition pair_ok (p : awr_pair) : Prop :=
  gap (p_gap1 p) /\ digits (p_zaid p) /\ (4 <= length (p_zaid p) <= 6)%nat /\ gap (p_gap2 p) /\ digits (p_int p) /\ digits (p_frac p).
Definition pair_text (p : awr_pair) : text := p_gap1 p ++ p_zaid p ++ p_gap2 p ++ p_value p.
(** the title of the section *)
Definition awr_title (t : text) : Prop :=
  exists a g1 w g2 r, t = a ++ g1 ++ w ++ g2 ++ r /\ spells (txt "atomic") a /\ gap g1 /\ spells (txt "weight") w /\ gap g2 /\ spells (txt "ratios") r.
(** no digit and no further pair follows *)
Definition ends_pairs (post : text) : Prop := ~ starts_with_digit post /\ forall p r, pair_ok p -> post <> pair_text p ++ r.

(** ** the data path: the letters, digits, and _ . / - and space, and the bytes from 192 *)
Definition path_char (c : ascii) : Prop :=
  let n := nat_of_ascii c in In n [32; 45; 46; 47; 95]%nat \/ (48 <= n <= 57)%nat \/ (65 <= n <= 90)%nat \/ (97 <= n <= 122)%nat \/ (192 <= n)%nat.
Definition path_text (p : text) : Prop := (exists c r, p = c :: r /\ c <> " "%char) /\ forall c, In c p -> path_char c.
(** white space, perhaps an equals sign, white space *)
Definition assigns (e : text) : Prop := exists g1 g2, blanks g1 /\ blanks g2 /\ (e = g1 ++ g2 \/ e = g1 ++ "="%char :: g2).

(** where a file named [f] is, for the data path [d] *)
Inductive located : text -> text -> text -> Prop :=
| loc_absolute d r : located d ("/"%char :: r) ("/"%char :: r)
| loc_here f : located [] f f
| loc_slash d f : (forall r, f <> "/"%char :: r) -> located (d ++ ["/"%char]) f (d ++ "/"%char :: f)
| loc_in d c f : (forall r, f <> "/"%char :: r) -> c <> "/"%char -> located (d ++ [c]) f (d ++ c :: "/"%char :: f).

(** ** the directory: one entry per line, its words separated by spaces or by a continuation mark and a new line *)
Definition word_ok (w : text) : Prop := w <> [] /\ (forall c, In c w -> ~ blank c) /\ w <> ["+"%char].
Inductive separator := Spaces (n : nat) | Continued (n : nat) (g : text) (m : nat).
Definition sep_ok (s : separator) : Prop := match s with Spaces _ => True | Continued _ g _ => blanks g end.
(** at least one space; or a space and a plus sign, white space, a new line *)
Definition sep_text (s : separator) : text :=
  match s with Spaces n => spaces (S n) | Continued n g m => spaces (S n) ++ "+"%char :: g ++ nl :: spaces m end.
Inductive dir_line := Empty (n : nat) | Entry (lead : nat) (first : text) (more : list (separator * text)) (trail : nat).
Definition line_ok (l : dir_line) : Prop :=
  match l with Empty _ => True | Entry _ w more _ => word_ok w /\ Forall (fun sw => sep_ok (fst sw) /\ word_ok (snd sw)) more end.
Definition line_text (l : dir_line) : text :=
  match l with
  | Empty n => spaces n
  | Entry lead w more trail => spaces lead ++ w ++ flat_map (fun sw => sep_text (fst sw) ++ snd sw) more ++ spaces trail
  end.
Definition line_entry (l : dir_line) : list text := match l with Empty _ => [] | Entry _ w more _ => w :: map snd more end.
(** the rest of the line of the word directory, and the lines after it *)
Definition directory_text (n : nat) (lines : list dir_line) : text := spaces n ++ flat_map (fun l => nl :: line_text l) lines.

(** ** words laid out with white space between them *)
Inductive laid_out : list text -> text -> Prop :=
| lay_nil g : blanks g -> laid_out [] g
| lay_cons g w ws t : blanks g -> w <> [] -> (forall c, In c w -> ~ blank c) -> laid_out ws t -> (ws <> [] -> exists c r, t = c :: r /\ blank c) -> laid_out (w :: ws) (g ++ w ++ t).

(** an entry with its file name located in the directory [d]; shorter lines are kept *)
Definition entry_row (d : text) (l : dir_line) (row : list text) : Prop :=
  match line_entry l with z :: a :: f :: r => exists p, located d f p /\ row = z :: a :: p :: r | ws => row = ws end.
(** ** the text [t] of an xsdir file in the directory [parent]: the atomic weight ratios, the data path and the directory it contains. Each section is the first one of its kind *)
Definition xsdir (parent t : text) (pairs : list awr_pair) (d : text) (ls : list dir_line) : Prop :=
  (exists pre title post, t = pre ++ title ++ flat_map pair_text pairs ++ post /\ awr_title title /\ pairs <> [] /\ Forall pair_ok pairs /\ ends_pairs post /\
     not_before (txt "atomic") pre (title ++ flat_map pair_text pairs ++ post)) /\
  (nowhere (txt "datapath") t /\ d = parent \/
   exists pre k e post, t = pre ++ k ++ e ++ d ++ post /\ spells (txt "datapath") k /\ not_before (txt "datapath") pre (k ++ e ++ d ++ post) /\ assigns e /\ path_text d /\
     (forall c r, post = c :: r -> ~ path_char c) /\ nowhere (txt "datapath") d) /\
  (exists pre k n, t = pre ++ k ++ directory_text n ls /\ spells (txt "directory") k /\ not_before (txt "directory") pre (k ++ directory_text n ls) /\ Forall line_ok ls).
(** the atomic weight ratio given for atomic number Z and mass number A: the one of the last pair with this ZAID *)
Definition given_awr {T} (value : text -> T -> Prop) (pairs : list awr_pair) (Z0 A : Z) (v : T) : Prop :=
  exists ps1 p ps2, pairs = ps1 ++ p :: ps2 /\ denotes (p_zaid p) (1000 * Z0 + A) /\ value (p_value p) v /\ forall q, In q ps2 -> ~ denotes (p_zaid q) (1000 * Z0 + A).
