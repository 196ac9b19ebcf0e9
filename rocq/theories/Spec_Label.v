(** Texts and colours for numbers, independently of the functions that make
    them. *)
From Coq Require Import List Arith ZArith QArith Qabs Ascii String.
From Verif Require Import Spec_Text.
Import ListNotations.
Open Scope Q_scope.

Definition chars (s : string) : list ascii := list_ascii_of_string s.

(** k/10 * 10^b with 10 <= k <= 99: a number with two significant digits *)
Definition two_figures (k b : Z) : Q := inject_Z k / 10 * 10 ^ b.
(** "$d.d$e$b$" with an optional minus sign; [q] is the number it reads as.
    The exponent is written without sign + and without leading zeros. *)
Definition integer_text (w : list ascii) : Prop :=
  exists sg ds, w = (sg ++ ds)%list /\ (sg = [] \/ sg = ["-"%char]) /\ List.Forall a_digit ds /\ ds <> [] /\
    (ds = ["0"%char] \/ hd "0"%char ds <> "0"%char).
Definition tick_label (w : list ascii) (neg : bool) (k b : Z) : Prop :=
  exists d1 d2 B, w = (chars "$" ++ (if neg then chars "-" else []) ++ [d1; "."%char; d2] ++ chars "$e$" ++ B ++ chars "$")%list /\
    a_digit d1 /\ a_digit d2 /\ d1 <> "0"%char /\ (k = 10 * (code d1 - 48) + (code d2 - 48))%Z /\
    integer_text B /\ decimal B (inject_Z b).

(** k/10 * 10^b is nearest to [m] among the numbers with two significant
    digits; if another one is as near, the last digit is even *)
Definition shown (m : Q) (k b : Z) : Prop :=
  (10 <= k <= 99)%Z /\
  (forall k' b', (10 <= k' <= 99)%Z -> Qabs (two_figures k b - m) <= Qabs (two_figures k' b' - m)) /\
  (forall k' b', (10 <= k' <= 99)%Z -> ~ two_figures k' b' == two_figures k b -> Qabs (two_figures k' b' - m) == Qabs (two_figures k b - m) -> Z.even k = true).

(** ** Colours as red, green, blue between 0 and 1 *)
Definition colour := (Q * Q * Q)%type.
Definition red (c : colour) : Q := fst (fst c).
Definition green (c : colour) : Q := snd (fst c).
Definition blue (c : colour) : Q := snd c.
Definition channels (c : colour) : list Q := [red c; green c; blue c].
Definition proper (c : colour) : Prop := List.Forall (fun q => 0 <= q <= 1) (channels c).
Definition same_colour (c d : colour) : Prop := red c == red d /\ green c == green d /\ blue c == blue d.
Definition near_colour (eps : Q) (c d : colour) : Prop :=
  Qabs (red c - red d) <= eps /\ Qabs (green c - green d) <= eps /\ Qabs (blue c - blue d) <= eps.
(** [v] falls into the [i]-th of 256 equal parts of [-L, L]; the limits
    themselves belong to the first and the last part *)
Definition part_of (L v : Q) (i : Z) : Prop :=
  (0 <= i < 256)%Z /\ - L + inject_Z i * (L / 128) <= v /\ (v < - L + inject_Z (i + 1) * (L / 128) \/ i = 255%Z /\ v == L).
(** no channel of [c] is larger *)
Definition brighter (c d : colour) : Prop := red c <= red d /\ green c <= green d /\ blue c <= blue d.
