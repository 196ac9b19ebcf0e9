(** Model of the small functions that turn numbers into texts and colours:
    [fmt] and [nio_colormap] (chaosmagpy/plot_utils.py 276-284, 311-361) and
    [memory_usage] (chaosmagpy/data_utils.py 645-658). *)
From Coq Require Import List Arith ZArith QArith Qround Ascii String Bool.
From Verif Require Import M_Prelude M_Text.
Import ListNotations.
Open Scope Z_scope.

(** ** '{:.1e}'.format(x) of a finite number with sign [neg] (also of zero) and
    absolute value [m]; external code, described by its documentation *)
(** the largest exponent not above [e] with 10^exponent <= m *)
Fixpoint exponent_from (fuel : nat) (e : Z) (m : Q) : Z :=
  match fuel with
  | O => e
  | S f => if Qle_bool (Qpower 10 e) m then e else exponent_from f (e - 1) m
  end.
Definition exponent10 (m : Q) : Z :=
  exponent_from (Z.to_nat (Z.log2 (Qnum m) + Z.log2 (Z.pos (Qden m)) + 2)) (Z.log2 (Qnum m) + 1) m.
(** two digits and the exponent of the first of them *)
Definition two_digits (m : Q) : Z * Z :=
  if Qeq_bool m 0 then (0, 0)
  else let e := exponent10 m in
       let u := round_half_even (m * Qpower 10 (1 - e)) in
       if u =? 100 then (10, e + 1) else (u, e).
(** the exponent with its sign and at least two digits *)
Definition print_exponent (e : Z) : text :=
  let d := print_nat (Z.abs e) in
  ((if e <? 0 then "-"%char else "+"%char) :: repeat "0"%char (2 - List.length d) ++ d)%list.
Definition format_1e (neg : bool) (m : Q) : text :=
  let '(u, e) := two_digits m in
  ((if neg then ["-"%char] else []) ++ print_nat (u / 10) ++ ["."%char] ++ digits 1 u ++ ["e"%char] ++ print_exponent e)%list.

(** text.split(c) *)
Fixpoint split_at (c : ascii) (w : text) (l : text) : list text :=
  match l with
  | [] => [rev w]
  | x :: l' => if Ascii.eqb x c then rev w :: split_at c [] l' else split_at c (x :: w) l'
  end.
Definition split (c : ascii) (l : text) : list text := split_at c [] l.
(** int(text) of a text [+|-]digits *)
Definition parse_int (l : text) : result Z :=
  let '(s, r) := match l with
                 | "-"%char :: r => (-1, r)
                 | "+"%char :: r => (1, r)
                 | _ => (1, l)
                 end in
  match parse_digits 0 0 r with
  | (v, S _, []) => Ok (s * v)
  | _ => Err ValueError
  end.
Fixpoint text_eqb (a b : text) : bool :=
  match a, b with
  | [], [] => true
  | x :: a', y :: b' => Ascii.eqb x y && text_eqb a' b'
  | _, _ => false
  end.

(** plot_utils.py 276-284 *)
Definition fmt (neg : bool) (m : Q) : result text :=
  match split "e" (format_1e neg m) with
  | [a; b] =>
      bind (parse_int b) (fun b =>
      if text_eqb a (txt "0.0") then Ok (["$"%char] ++ a ++ ["$"%char])%list
      else Ok (["$"%char] ++ a ++ txt "$e$" ++ print_Z b ++ ["$"%char])%list)
  | _ => Err ValueError
  end.

(** data_utils.py 645-658.  Bytes of every column, the index included, or of
    the one series; pandas is external. *)
Inductive pandas_obj := DataFrame (columns : list Z) | Series (bytes : Z).
(** '{:03.2f}'.format(x) of x >= 0: always at least four characters wide *)
Definition format_2f (x : Q) : text :=
  let u := round_half_even (x * 100) in (print_nat (u / 100) ++ ["."%char] ++ digits 2 u)%list.
Definition memory_usage (o : pandas_obj) : text :=
  let usage_b := match o with
                 | DataFrame l => fold_right Z.add 0 l
                 | Series b => b
                 end in
  (format_2f (inject_Z usage_b / inject_Z (1024 ^ 2)) ++ txt " MB")%list.

(** ** Colours *)
(** plot_utils.py 337-359: position, value below and value above it *)
Definition node := (Q * Q * Q)%type.
Definition nio_red : list node :=
  [(0, 0, 0); (1667 # 10000, 0, 0); (3333 # 10000, 0, 0); (5020 # 10000, 1, 1);
   (6667 # 10000, 1, 1); (8333 # 10000, 1, 1); (1, 1, 1)]%Q.
Definition nio_green : list node :=
  [(0, 0, 0); (1667 # 10000, 0, 0); (3333 # 10000, 1, 1); (5020 # 10000, 1, 1);
   (6667 # 10000, 1, 1); (8333 # 10000, 0, 0); (1, 0, 0)]%Q.
Definition nio_blue : list node :=
  [(0, 0, 0); (1667 # 10000, 1, 1); (3333 # 10000, 1, 1); (5020 # 10000, 1, 1);
   (6667 # 10000, 0, 0); (8333 # 10000, 0, 0); (1, 1, 1)]%Q.

(** matplotlib.colors.LinearSegmentedColormap (external) with its 256 entries:
    the entry of channel [data] at position [x], by linear interpolation
    between the nodes around it (np.searchsorted: the first node not below x) *)
Fixpoint lut_at (data : list node) (x : Q) : Q :=
  match data with
  | (x0, _, y1) :: (((x1, y0, _) :: _) as rest) =>
      if Qle_bool x x1 then ((x - x0) / (x1 - x0) * (y0 - y1) + y1)%Q else lut_at rest x
  | _ => 0%Q
  end.
Definition lut_entry (data : list node) (i : Z) : Q :=
  if i =? 0 then snd (hd (0, 0, 0)%Q data)
  else if i =? 255 then snd (fst (last data (0, 0, 0)%Q))
  else lut_at data (i # 255).
(** Colormap.__call__: the entry of a number; below 0 and above 1 the first and
    the last entry *)
Definition bin (x : Q) : Z :=
  if Qle_bool 1 x then 255 else if Qle_bool x 0 then 0 else Qfloor (256 * x).
Definition nio_colormap (x : Q) : Q * Q * Q :=
  let i := bin x in (lut_entry nio_red i, lut_entry nio_green i, lut_entry nio_blue i).
(** matplotlib.colors.Normalize with limits -L and L, as set by [plot_maps]
    (plot_utils.py 190-192) *)
Definition map_colour (L v : Q) : Q * Q * Q := nio_colormap ((v - - L) / (L - - L)).
