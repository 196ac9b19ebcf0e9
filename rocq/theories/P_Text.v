(** Formatting followed by parsing. *)
From Coq Require Import List Arith ZArith QArith Qabs Qround Ascii String Bool Lia Lqa.
From Verif Require Import M_Text.
Import ListNotations.
Open Scope Z_scope.

(** ** Digits *)
Definition is_digit (c : ascii) : Prop := exists d, 0 <= d < 10 /\ c = digit d.

Lemma digit_ten d : 0 <= d < 10 -> d = 0 \/ d = 1 \/ d = 2 \/ d = 3 \/ d = 4 \/ d = 5 \/ d = 6 \/ d = 7 \/ d = 8 \/ d = 9.
Proof. lia. Qed.
Ltac ten H := let X := fresh in pose proof (digit_ten _ H) as X; repeat (destruct X as [X|X]; [subst; try reflexivity; try discriminate|]); subst; try reflexivity; try discriminate.

Lemma digit_value_digit d : 0 <= d < 10 -> digit_value (digit d) = Some d.
Proof. intros H. ten H. Qed.
Lemma digit_not_space c : is_digit c -> is_space c = false.
Proof. intros (d & H & ->). ten H. Qed.
Lemma digit_not_nl c : is_digit c -> Ascii.eqb c "010" = false.
Proof. intros (d & H & ->). ten H. Qed.

Lemma digits_digit k : forall n, Forall is_digit (digits k n).
Proof.
  induction k as [|k IH]; intros n; cbn [digits]; [constructor|]. apply Forall_app. split; [apply IH|].
  constructor; [|constructor]. exists (n mod 10). split; [apply Z.mod_pos_bound; lia|reflexivity].
Qed.
Lemma digits_length k : forall n, List.length (digits k n) = k.
Proof. induction k as [|k IH]; intros n; cbn [digits]; [reflexivity|]. rewrite app_length, IH. cbn. lia. Qed.

Definition dval (c : ascii) : Z := match digit_value c with Some d => d | None => 0 end.
Definition value (acc : Z) (l : text) : Z := fold_left (fun a c => 10 * a + dval c) l acc.

Lemma value_app acc a b : value acc (a ++ b) = value (value acc a) b.
Proof. apply fold_left_app. Qed.

Lemma value_digits k : forall acc n, value acc (digits k n) = acc * 10 ^ Z.of_nat k + n mod 10 ^ Z.of_nat k.
Proof.
  induction k as [|k IH]; intros acc n; cbn [digits].
  - change (10 ^ Z.of_nat 0) with 1. rewrite Z.mod_1_r. cbn. lia.
  - rewrite value_app, IH. cbn [value fold_left]. unfold dval. rewrite digit_value_digit by (apply Z.mod_pos_bound; lia).
    rewrite Nat2Z.inj_succ, Z.pow_succ_r by lia. pose proof (Z.pow_pos_nonneg 10 (Z.of_nat k) ltac:(lia) ltac:(lia)).
    rewrite (Z.rem_mul_r n 10 (10 ^ Z.of_nat k)) by lia. ring.
Qed.

Lemma strip0_digit l : Forall is_digit l -> Forall is_digit (strip0 l).
Proof.
  induction l as [|c l IH]; intros H; [constructor|]. cbn [strip0]. destruct l as [|d l]; [exact H|].
  destruct (Ascii.eqb c "0"); [|exact H]. apply IH. inversion H; assumption.
Qed.
Lemma strip0_value l : value 0 (strip0 l) = value 0 l.
Proof.
  induction l as [|c l IH]; [reflexivity|]. cbn [strip0]. destruct l as [|d l]; [reflexivity|].
  destruct (Ascii.eqb_spec c "0") as [ -> |N]; [|reflexivity]. rewrite IH. reflexivity.
Qed.
Lemma strip0_nonempty l : l <> [] -> strip0 l <> [].
Proof.
  induction l as [|c l IH]; intros H; [contradiction|]. cbn [strip0]. destruct l as [|d l]; [discriminate|].
  destruct (Ascii.eqb c "0"); [|discriminate]. apply IH. discriminate.
Qed.

Lemma parse_digits_app l : forall acc k r, Forall is_digit l -> parse_digits acc k (l ++ r) = parse_digits (value acc l) (k + List.length l) r.
Proof.
  induction l as [|c l IH]; intros acc k r H; [cbn; rewrite Nat.add_0_r; reflexivity|].
  inversion H as [|? ? Hc Hl]; subst. cbn [app parse_digits]. destruct Hc as (d & Hd & ->). rewrite digit_value_digit by exact Hd.
  rewrite IH by exact Hl. cbn [value fold_left List.length]. unfold dval. rewrite digit_value_digit by exact Hd. f_equal. lia.
Qed.

Lemma log2_pow10 n : 0 <= n -> n < 10 ^ Z.of_nat (S (Z.to_nat (Z.log2 n))).
Proof.
  intros H. rewrite Nat2Z.inj_succ, Z2Nat.id by apply Z.log2_nonneg.
  destruct (Z.eq_dec n 0) as [ -> |N]; [cbn; lia|].
  pose proof (Z.log2_spec n ltac:(lia)) as [_ L].
  eapply Z.lt_le_trans; [exact L|]. apply Z.pow_le_mono_l. split; [lia|lia].
Qed.
Lemma print_nat_spec n : 0 <= n -> Forall is_digit (print_nat n) /\ print_nat n <> [] /\ value 0 (print_nat n) = n.
Proof.
  intros H. unfold print_nat. split; [apply strip0_digit, digits_digit|]. split.
  - apply strip0_nonempty. cbn [digits]. intros E. apply app_eq_nil in E. destruct E as [_ E]. discriminate.
  - rewrite strip0_value, value_digits, Z.mod_small; [lia|]. split; [lia|apply log2_pow10; lia].
Qed.

(** ** Numbers *)
Definition core8 (neg : bool) (u : Z) : text :=
  ((if neg then ["-"%char] else []) ++ print_nat (u / 100000000) ++ ["."%char] ++ digits 8 u)%list.

Lemma head_digit l : Forall is_digit l -> l <> [] -> forall r, parse_float (l ++ r) = parse_unsigned (l ++ r).
Proof.
  intros H N r. destruct l as [|c l]; [contradiction|]. inversion H as [|? ? (d & Hd & ->)]; subst. cbn [app parse_float].
  ten Hd.
Qed.
Lemma head_digit_int l : Forall is_digit l -> l <> [] -> parse_float l = parse_unsigned l.
Proof. intros H N. pose proof (head_digit l H N []) as E. rewrite app_nil_r in E. exact E. Qed.

Lemma parse_unsigned_frac u : 0 <= u -> parse_unsigned (print_nat (u / 100000000) ++ ["."%char] ++ digits 8 u) = Some (inject_Z u / inject_Z 100000000)%Q.
Proof.
  intros H. destruct (print_nat_spec (u / 100000000) ltac:(apply Z.div_pos; lia)) as (D & N & V).
  unfold parse_unsigned. rewrite parse_digits_app by exact D. rewrite V. cbn [app]. 
  change (parse_digits (u / 100000000) (0 + List.length (print_nat (u / 100000000))) ("."%char :: digits 8 u))
    with (u / 100000000, (0 + List.length (print_nat (u / 100000000)))%nat, "."%char :: digits 8 u). cbv iota beta.
  pose proof (parse_digits_app (digits 8 u) (u / 100000000) 0 [] (digits_digit 8 u)) as P. rewrite app_nil_r in P. rewrite P.
  rewrite digits_length, value_digits. cbn [parse_digits]. 
  destruct (Nat.eqb_spec (0 + List.length (print_nat (u / 100000000)) + (0 + 8)) 0); [lia|].
  change (10 ^ Z.of_nat 8) with 100000000. change (Z.of_nat (0 + 8)) with 8. change (10 ^ 8) with 100000000.
  replace (u / 100000000 * 100000000 + u mod 100000000) with u; [reflexivity|]. rewrite (Z.div_mod u 100000000) at 1 by lia. ring.
Qed.

Lemma parse_core8 neg u : 0 <= u -> exists q, parse_float (core8 neg u) = Some q /\ (q == (if neg then - u else u) # 100000000)%Q.
Proof.
  intros H. destruct (print_nat_spec (u / 100000000) ltac:(apply Z.div_pos; lia)) as (D & N & V). unfold core8. destruct neg.
  - cbn [app parse_float]. pose proof (parse_unsigned_frac u H) as P. cbn [app] in P. rewrite P. eexists. split; [reflexivity|].
    unfold Qeq. cbn. nia.
  - cbn [app]. pose proof (parse_unsigned_frac u H) as P. cbn [app] in P. rewrite head_digit, P by assumption. eexists. split; [reflexivity|].
    unfold Qeq. cbn. nia.
Qed.

Lemma parse_print_Z n : exists q, parse_float (print_Z n) = Some q /\ (q == inject_Z n)%Q.
Proof.
  assert (P : forall n, 0 <= n -> parse_unsigned (print_nat n) = Some (inject_Z n)).
  { intros k H. destruct (print_nat_spec k H) as (D & N & V). unfold parse_unsigned.
    pose proof (parse_digits_app (print_nat k) 0 0 [] D) as P. rewrite app_nil_r in P. rewrite P, V. cbn [parse_digits].
    destruct (print_nat k) as [|? ?]; [contradiction|]. reflexivity. }
  unfold print_Z. destruct (Z.ltb_spec n 0) as [L|L].
  - cbn [parse_float]. rewrite P by lia. eexists. split; [reflexivity|]. unfold Qeq. cbn. lia.
  - destruct (print_nat_spec n L) as (D & N & V). rewrite head_digit_int, P by assumption. eexists. split; reflexivity.
Qed.

(** ** Words *)
Definition plain (w : text) : Prop := w <> [] /\ Forall (fun c => is_space c = false) w.
Lemma core8_plain neg u : 0 <= u -> plain (core8 neg u).
Proof.
  intros H. destruct (print_nat_spec (u / 100000000) ltac:(apply Z.div_pos; lia)) as (D & N & V). unfold core8. split.
  - destruct neg; [discriminate|]. cbn [app]. intros E. apply app_eq_nil in E. tauto.
  - apply Forall_app. split; [destruct neg; repeat constructor|]. apply Forall_app. split.
    + eapply Forall_impl; [|exact D]. apply digit_not_space.
    + constructor; [reflexivity|]. eapply Forall_impl; [|apply digits_digit]. apply digit_not_space.
Qed.
Lemma print_Z_plain n : plain (print_Z n).
Proof.
  unfold print_Z. destruct (Z.ltb_spec n 0) as [L|L].
  - destruct (print_nat_spec (- n) ltac:(lia)) as (D & N & V). split; [discriminate|]. constructor; [reflexivity|].
    eapply Forall_impl; [|exact D]. apply digit_not_space.
  - destruct (print_nat_spec n L) as (D & N & V). split; [exact N|]. eapply Forall_impl; [|exact D]. apply digit_not_space.
Qed.

Lemma words_acc_plain a : forall w, Forall (fun c => is_space c = false) a -> words_acc w a = match (rev a ++ w)%list with [] => [] | _ => [rev (rev a ++ w)] end.
Proof.
  induction a as [|c a IH]; intros w H; [cbn; destruct w; reflexivity|]. inversion H; subst. cbn [words_acc]. rewrite H2, IH by assumption.
  cbn [rev]. rewrite <- app_assoc. reflexivity.
Qed.
Lemma words_plain w : plain w -> words w = [w].
Proof.
  intros [N H]. unfold words. rewrite words_acc_plain by exact H. rewrite app_nil_r, rev_involutive.
  destruct (rev w) eqn:E; [|reflexivity]. exfalso. apply N. rewrite <- (rev_involutive w), E. reflexivity.
Qed.
Lemma words_acc_space c b : is_space c = true -> forall a w, words_acc w (a ++ c :: b) = (words_acc w a ++ words_acc [] b)%list.
Proof.
  intros Hc. induction a as [|x a IH]; intros w.
  - cbn [app words_acc]. rewrite Hc. destruct w; reflexivity.
  - cbn [app words_acc]. destruct (is_space x); [destruct w|]; rewrite ?IH; reflexivity.
Qed.
Lemma words_space a c b : is_space c = true -> words (a ++ c :: b) = (words a ++ words b)%list.
Proof. intros H. apply words_acc_space, H. Qed.
Lemma words_spaces n l : words (spaces n ++ l) = words l.
Proof. induction n as [|n IH]; [reflexivity|]. exact IH. Qed.
Lemma words_pad n w : plain w -> words (pad n w) = [w].
Proof. intros H. unfold pad. rewrite words_spaces. apply words_plain, H. Qed.

(** a line of padded words, each after a blank *)
Lemma words_join (l : list (nat * text)) : Forall (fun p => plain (snd p)) l -> forall a,
  words (a ++ flat_map (fun p => txt " " ++ pad (fst p) (snd p)) l)%list = (words a ++ map snd l)%list.
Proof.
  induction l as [|[n w] l IH]; intros H a; [cbn; rewrite !app_nil_r; reflexivity|].
  inversion H as [|? ? Hw Hl]; subst. cbn [flat_map map snd fst] in *. 
  change (txt " " ++ pad n w)%list with (" "%char :: pad n w). cbn [app].
  rewrite (words_space a " "%char _ eq_refl). rewrite IH by exact Hl. rewrite words_pad by exact Hw. reflexivity.
Qed.

(** ** Lines *)
Definition one_line (l : text) : Prop := Forall (fun c => Ascii.eqb c "010" = false) l.
Lemma lines_acc_line a : forall w b, one_line a -> lines_acc w (a ++ "010"%char :: b) = rev (rev a ++ w) :: lines_acc [] b.
Proof.
  induction a as [|c a IH]; intros w b H; [reflexivity|]. inversion H; subst. cbn [app lines_acc]. rewrite H2, IH by assumption.
  cbn [rev]. rewrite <- app_assoc. reflexivity.
Qed.
Lemma lines_line a b : one_line a -> lines (a ++ ["010"%char] ++ b) = a :: lines b.
Proof. intros H. unfold lines. cbn [app]. rewrite lines_acc_line by exact H. rewrite app_nil_r, rev_involutive. reflexivity. Qed.

Lemma space_nl c : is_space c = false -> Ascii.eqb c "010" = false.
Proof. intros H. destruct (Ascii.eqb_spec c "010") as [ -> |]; [discriminate|reflexivity]. Qed.
Lemma plain_one_line w : plain w -> one_line w.
Proof. intros [_ H]. eapply Forall_impl; [|exact H]. apply space_nl. Qed.
Lemma one_line_app a b : one_line a -> one_line b -> one_line (a ++ b).
Proof. intros H1 H2. apply Forall_app. split; assumption. Qed.
Lemma one_line_spaces n : one_line (spaces n).
Proof. induction n; constructor; [reflexivity|assumption]. Qed.
Lemma one_line_pad n w : plain w -> one_line (pad n w).
Proof. intros H. apply one_line_app; [apply one_line_spaces|apply plain_one_line, H]. Qed.
Lemma one_line_join (l : list (nat * text)) : Forall (fun p => plain (snd p)) l -> 
  one_line (flat_map (fun p => txt " " ++ pad (fst p) (snd p)) l)%list.
Proof.
  induction l as [|[n w] l IH]; intros H; [constructor|]. inversion H; subst. cbn [flat_map fst snd] in *.
  apply one_line_app; [|apply IH; assumption]. constructor; [reflexivity|]. apply one_line_pad. assumption.
Qed.

(** ** Rounding *)
Lemma round_half_even_spec a : (0 <= a)%Q -> (0 <= round_half_even a)%Z /\ (Qabs (inject_Z (round_half_even a) - a) <= 1 # 2)%Q.
Proof.
  intros H. pose proof (Qfloor_le a) as F1. pose proof (Qlt_floor a) as F2. set (f := Qfloor a) in *.
  assert (Hf : (0 <= f)%Z). { assert (H0 : (inject_Z 0 < inject_Z (f + 1))%Q) by (eapply Qle_lt_trans; [exact H|exact F2]). rewrite <- Zlt_Qlt in H0. lia. }
  rewrite inject_Z_plus in F2. change (inject_Z 1) with 1%Q in F2.
  unfold round_half_even. fold f. destruct (Qcompare_spec (a - inject_Z f) (1 # 2)) as [C|C|C].
  - destruct (Z.even f); (split; [lia|]); apply Qabs_Qle_condition; rewrite ?inject_Z_plus; change (inject_Z 1) with 1%Q; lra.
  - split; [lia|]. apply Qabs_Qle_condition. lra.
  - split; [lia|]. apply Qabs_Qle_condition. rewrite inject_Z_plus. change (inject_Z 1) with 1%Q. lra.
Qed.
