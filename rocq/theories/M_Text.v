(** Text as lists of characters: the formatting and parsing operations of
    Python and NumPy used for SHC files.  External code, described by its
    documented behaviour. *)
From Coq Require Import List Arith ZArith QArith Qabs Qround Ascii String Bool Lia.
Import ListNotations.

Definition text := list ascii.
Definition txt (s : string) : text := list_ascii_of_string s.

(** ** Printing *)
Definition digit (d : Z) : ascii := ascii_of_nat (48 + Z.to_nat d).
(** the last k decimal digits of n *)
Fixpoint digits (k : nat) (n : Z) : text :=
  match k with O => [] | S k' => (digits k' (n / 10) ++ [digit (n mod 10)])%list end.
Fixpoint strip0 (l : text) : text :=
  match l with
  | c :: ((_ :: _) as l') => if Ascii.eqb c "0" then strip0 l' else l
  | _ => l
  end.
(** str(n) for n >= 0: no leading zeros *)
Definition print_nat (n : Z) : text := strip0 (digits (S (Z.to_nat (Z.log2 n))) n).
(** '{}'.format(n) for an integer *)
Definition print_Z (n : Z) : text := if (n <? 0)%Z then "-"%char :: print_nat (- n) else print_nat n.

(** |x| in units of 10^-8, nearest integer, ties to even *)
Definition round_half_even (a : Q) : Z :=
  let f := Qfloor a in
  match Qcompare (a - inject_Z f) (1 # 2) with
  | Lt => f
  | Gt => (f + 1)%Z
  | Eq => if Z.even f then f else (f + 1)%Z
  end.
Definition spaces (n : nat) : text := repeat " "%char n.
Definition pad (w : nat) (l : text) : text := (spaces (w - List.length l) ++ l)%list.
(** '{:16.8f}' of the number with sign [neg] and absolute value u * 10^-8 *)
Definition fmt8 (neg : bool) (u : Z) : text :=
  pad 16 ((if neg then ["-"%char] else []) ++ print_nat (u / 100000000) ++ ["."%char] ++ digits 8 u)%list.

(** ** Parsing *)
Definition is_space (c : ascii) : bool :=
  existsb (Ascii.eqb c) [" "; "009"; "010"; "011"; "012"; "013"]%char.
Definition digit_value (c : ascii) : option Z :=
  let n := Z.of_nat (nat_of_ascii c) in
  if ((48 <=? n) && (n <=? 57))%Z%bool then Some (n - 48)%Z else None.
(** leading digits: value, number of digits, rest *)
Fixpoint parse_digits (acc : Z) (k : nat) (l : text) : Z * nat * text :=
  match l with
  | c :: l' => match digit_value c with Some d => parse_digits (10 * acc + d) (S k) l' | None => (acc, k, l) end
  | [] => (acc, k, [])
  end.
(** the exponent of a number: nothing, or e|E and an integer *)
Definition parse_exponent (r : text) : option Z :=
  match r with
  | [] => Some 0%Z
  | c :: r =>
      if (Ascii.eqb c "e" || Ascii.eqb c "E")%bool then
        let '(sign, r) := match r with
                          | "-"%char :: r' => ((-1)%Z, r')
                          | "+"%char :: r' => (1%Z, r')
                          | _ => (1%Z, r)
                          end in
        match parse_digits 0 0 r with
        | (v, S _, []) => Some (sign * v)%Z
        | _ => None
        end
      else None
  end.
(** m * 10^e, the mantissa unchanged without exponent *)
Definition scaled (m : Q) (e : Z) : Q := if (e =? 0)%Z then m else (m * Qpower 10 e)%Q.
(** A decimal number [-|+]digits[.digits][e[-|+]digits]; inf and nan are not
    modelled, nor numbers followed directly by other characters (of which
    np.fromstring still reads the number). *)
Definition parse_unsigned (l : text) : option Q :=
  let '(a, k, r) := parse_digits 0 0 l in
  match r with
  | "."%char :: r' =>
      let '(b, j, r'') := parse_digits a 0 r' in
      if (k + j =? 0)%nat then None
      else option_map (scaled (inject_Z b / inject_Z (10 ^ Z.of_nat j))%Q) (parse_exponent r'')
  | _ => if (k =? 0)%nat then None else option_map (scaled (inject_Z a)) (parse_exponent r)
  end.
Definition parse_float (l : text) : option Q :=
  match l with
  | "-"%char :: l' => option_map Qopp (parse_unsigned l')
  | "+"%char :: l' => parse_unsigned l'
  | _ => parse_unsigned l
  end.
(** whitespace-separated words *)
Fixpoint words_acc (w : text) (l : text) : list text :=
  match l with
  | [] => match w with [] => [] | _ => [rev w] end
  | c :: l' => if is_space c then match w with [] => words_acc [] l' | _ => rev w :: words_acc [] l' end
               else words_acc (c :: w) l'
  end.
Definition words (l : text) : list text := words_acc [] l.
(** np.fromstring(line, sep=' '): the numbers up to the first word that is none *)
Fixpoint floats (l : list text) : list Q :=
  match l with
  | [] => []
  | w :: l' => match parse_float w with Some q => q :: floats l' | None => [] end
  end.
Definition fromstring (line : text) : list Q := floats (words line).

(** f.readlines(), without the line ends *)
Fixpoint lines_acc (w : text) (l : text) : list text :=
  match l with
  | [] => match w with [] => [] | _ => [rev w] end
  | c :: l' => if Ascii.eqb c "010" then rev w :: lines_acc [] l' else lines_acc (c :: w) l'
  end.
Definition lines (l : text) : list text := lines_acc [] l.
Fixpoint lstrip (l : text) : text := match l with c :: l' => if is_space c then lstrip l' else l | [] => [] end.
Fixpoint prefix (p l : text) : bool :=
  match p, l with
  | [], _ => true
  | a :: p', b :: l' => Ascii.eqb a b && prefix p' l'
  | _, [] => false
  end.
(** line.strip().startswith(comment) *)
Definition is_comment (comment line : text) : bool := prefix comment (lstrip line).
