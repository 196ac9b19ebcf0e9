(** C135: the numbers, words and lines of text files (coefficients, SHC, RC,
    ...), against the grammar of Spec_Text. *)
From Coq Require Import List Arith ZArith QArith Ascii String Bool Lia.
From Verif Require Import M_Text Spec_Text P_Text P_TextSpec.
Import ListNotations.

(** Every decimal number is read with its value, and nothing else is read. *)
Theorem C135_decimal_numbers_are_read : forall w q, decimal w q -> exists q', parse_float w = Some q' /\ (q' == q)%Q.
Proof. exact parse_float_complete. Qed.
Theorem C135_only_decimal_numbers_are_read : forall w q, parse_float w = Some q -> decimal w q.
Proof. exact parse_float_sound. Qed.
(** The value is unique. *)
Theorem C135_one_value : forall w q q', decimal w q -> decimal w q' -> (q == q')%Q.
Proof.
  intros w q q' D D'. destruct (parse_float_complete _ _ D) as (u & E & H), (parse_float_complete _ _ D') as (u' & E' & H').
  assert (u = u') by congruence. subst u'. rewrite <- H, <- H'. reflexivity.
Qed.
Theorem C135_words : forall l ws, words l = ws <-> words_of l ws.
Proof. exact words_spec. Qed.
Theorem C135_lines : forall l ls, lines l = ls <-> lines_of l ls.
Proof. exact lines_spec. Qed.
(** np.fromstring reads the leading words that are numbers. *)
Theorem C135_fromstring : forall l ws, words_of l ws ->
  exists num rest, ws = (num ++ rest)%list /\ Forall2 decimal num (fromstring l) /\
    match rest with [] => True | w :: _ => forall q, ~ decimal w q end.
Proof.
  intros l ws H. unfold fromstring. rewrite (proj2 (words_spec l ws) H). clear l H.
  induction ws as [|w ws (num & rest & E & F & R)]; [exists [], []; repeat split; constructor|].
  cbn [floats]. destruct (parse_float w) as [q|] eqn:P.
  - exists (w :: num), rest. split; [rewrite E; reflexivity|]. split; [|exact R]. constructor; [apply parse_float_sound, P|exact F].
  - exists [], (w :: ws). split; [reflexivity|]. split; [constructor|]. intros q D. apply parse_float_complete in D. destruct D as (q' & K & _). congruence.
Qed.

Example C135_number : decimal (txt "-12.50e-1") (-125 # 100) /\ decimal (txt "+.5E2") 50 /\ decimal (txt "7.") 7 /\
  (forall q, ~ decimal (txt "1e") q) /\ (forall q, ~ decimal (txt ".") q) /\ (forall q, ~ decimal (txt "1.2.3") q).
Proof.
  split; [|split; [|split]].
  - exists ["-"%char], (-1)%Z, (txt "12"), ["."%char], (txt "50"), (txt "e-1"), (-1)%Z.
    repeat split; try (repeat constructor; unfold code; cbn; lia); try (left; reflexivity); try discriminate.
    apply (exponent_some "e" ["-"%char] (-1) (txt "1")); [auto|constructor| |discriminate]. repeat constructor; unfold code; cbn; lia.
  - exists ["+"%char], 1%Z, [], ["."%char], (txt "5"), (txt "E2"), 2%Z.
    repeat split; try (repeat constructor; unfold code; cbn; lia); try (left; reflexivity); try discriminate.
    apply (exponent_some "E" [] 1 (txt "2")); [auto|constructor| |discriminate]. repeat constructor; unfold code; cbn; lia.
  - exists [], 1%Z, (txt "7"), ["."%char], [], [], 0%Z.
    repeat split; try (repeat constructor; unfold code; cbn; lia); try (left; reflexivity); try discriminate; try constructor.
  - split; [|split]; intros q D; apply parse_float_complete in D; destruct D as (q' & K & _); discriminate.
Qed.
Example C135_line : words_of (txt " a  bc ") [txt "a"; txt "bc"] /\ lines_of (txt "x" ++ [newline; newline] ++ txt "y") [txt "x"; []; txt "y"].
Proof. split; [apply words_spec|apply lines_spec]; reflexivity. Qed.

Print Assumptions C135_decimal_numbers_are_read.
Print Assumptions C135_only_decimal_numbers_are_read.
Print Assumptions C135_one_value.
Print Assumptions C135_words.
Print Assumptions C135_lines.
Print Assumptions C135_fromstring.
