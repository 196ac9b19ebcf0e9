From Coq Require Import List Arith ZArith QArith Qabs Qround Qpower Qfield Ascii String Bool Lia Lqa.
From Verif Require Import M_Prelude M_Text P_Text Spec_Text P_TextSpec M_Label Spec_Label.
Import ListNotations.
Open Scope Q_scope.

Lemma ten_pos e : 0 < 10 ^ e.
Proof. apply Qpower_0_lt. reflexivity. Qed.
Lemma ten_add a b : 10 ^ (a + b) == 10 ^ a * 10 ^ b.
Proof. apply Qpower_plus. discriminate. Qed.
Lemma ten_le a b : (a <= b)%Z -> 10 ^ a <= 10 ^ b.
Proof. intros H. apply Qpower_le_compat_l; [exact H|discriminate]. Qed.
Lemma ten_Z n : (0 <= n)%Z -> inject_Z (10 ^ n) == 10 ^ n.
Proof. intros H. rewrite <- (Z2Nat.id n) by exact H. apply pow10_Q. Qed.

(** ** The exponent *)
Lemma exponent_from_spec f : forall e m, 0 < m -> m < 10 ^ (e + 1) -> 10 ^ (e - Z.of_nat f) <= m ->
  10 ^ exponent_from f e m <= m /\ m < 10 ^ (exponent_from f e m + 1).
Proof.
  induction f as [|f IH]; intros e m Hm U L.
  - cbn in *. rewrite Z.sub_0_r in L. split; assumption.
  - cbn [exponent_from]. destruct (Qle_bool (10 ^ e) m) eqn:C.
    + apply Qle_bool_iff in C. split; assumption.
    + apply not_true_iff_false in C. rewrite Qle_bool_iff in C. apply IH; [exact Hm| |].
      * rewrite Z.sub_add. lra.
      * replace (e - 1 - Z.of_nat f)%Z with (e - Z.of_nat (S f))%Z by lia. exact L.
Qed.
Lemma pow2_10 n : (0 <= n)%Z -> (2 ^ n <= 10 ^ n)%Z.
Proof. intros H. apply Z.pow_le_mono_l. lia. Qed.
Lemma exponent10_spec m : 0 < m -> 10 ^ exponent10 m <= m /\ m < 10 ^ (exponent10 m + 1).
Proof.
  intros H. destruct m as [n d]. assert (N : (0 < n)%Z) by (unfold Qlt in H; cbn in H; lia).
  unfold exponent10. cbn [Qnum Qden]. pose proof (Z.log2_nonneg n). pose proof (Z.log2_nonneg (Z.pos d)).
  assert (U : (n # d) < 10 ^ (Z.log2 n + 1)).
  { rewrite <- ten_Z by lia. pose proof (Z.log2_spec n N) as (_ & S0). pose proof (pow2_10 (Z.log2 n + 1) ltac:(lia)).
    unfold Qlt. cbn. unfold Z.succ in S0. nia. }
  apply exponent_from_spec; [exact H| |].
  - eapply Qlt_le_trans; [exact U|]. apply ten_le. lia.
  - rewrite Z2Nat.id by lia.
    replace (Z.log2 n + 1 - (Z.log2 n + Z.log2 (Z.pos d) + 2))%Z with (- (Z.log2 (Z.pos d) + 1))%Z by lia.
    rewrite Qpower_opp. pose proof (Z.log2_spec (Z.pos d) ltac:(lia)) as (_ & S0). pose proof (pow2_10 (Z.log2 (Z.pos d) + 1) ltac:(lia)).
    assert (D : inject_Z (Z.pos d) <= 10 ^ (Z.log2 (Z.pos d) + 1)). { rewrite <- ten_Z by lia. rewrite <- Zle_Qle. unfold Z.succ in S0. lia. }
    pose proof (ten_pos (Z.log2 (Z.pos d) + 1)) as TP. set (t := 10 ^ (Z.log2 (Z.pos d) + 1)) in *.
    assert (DP : 0 < inject_Z (Z.pos d)) by reflexivity.
    assert (X : / t <= / inject_Z (Z.pos d)).
    { apply Qle_shift_inv_l in D || idtac. apply (Qmult_le_l _ _ (t * inject_Z (Z.pos d))); [apply Qmult_lt_0_compat; assumption|].
      setoid_replace (t * inject_Z (Z.pos d) * / t) with (inject_Z (Z.pos d)) by (field; lra).
      setoid_replace (t * inject_Z (Z.pos d) * / inject_Z (Z.pos d)) with t by (field; discriminate). exact D. }
    eapply Qle_trans; [exact X|]. unfold Qle, Qinv, inject_Z. cbn. nia.
Qed.

(** ** Rounding *)
Lemma rhe_tie a : Qabs (inject_Z (round_half_even a) - a) == 1 # 2 -> Z.even (round_half_even a) = true.
Proof.
  intros H. unfold round_half_even in *. pose proof (Qfloor_le a) as L. pose proof (Qlt_floor a) as U. rewrite inject_Z_plus in U. change (inject_Z 1) with 1 in U.
  destruct (Qcompare_spec (a - inject_Z (Qfloor a)) (1 # 2)) as [C | C | C].
  - destruct (Z.even (Qfloor a)) eqn:Ev; [exact Ev|]. rewrite Z.even_add, Ev. reflexivity.
  - exfalso. rewrite Qabs_neg in H by lra. lra.
  - exfalso. rewrite inject_Z_plus in H. change (inject_Z 1) with 1 in H. rewrite Qabs_pos in H by lra. lra.
Qed.
Lemma Z_near u z (a : Q) : Qabs (inject_Z u - a) <= 1 # 2 -> Qabs (inject_Z u - a) <= Qabs (inject_Z z - a).
Proof.
  intros H. destruct (Z.eq_dec u z) as [->|N]; [apply Qle_refl|].
  assert (D : (u + 1 <= z \/ z + 1 <= u)%Z) by lia. destruct D as [D | D]; rewrite Zle_Qle, inject_Z_plus in D; change (inject_Z 1) with 1 in D.
  - revert H. apply Qabs_case; intros; (rewrite (Qabs_pos (inject_Z z - a)); lra).
  - revert H. apply Qabs_case; intros; (rewrite (Qabs_neg (inject_Z z - a)); lra).
Qed.
Lemma Z_tie u z (a : Q) : Qabs (inject_Z u - a) <= 1 # 2 -> z <> u -> Qabs (inject_Z z - a) <= Qabs (inject_Z u - a) -> Qabs (inject_Z u - a) == 1 # 2.
Proof.
  intros H N K. assert (D : (u + 1 <= z \/ z + 1 <= u)%Z) by lia. destruct D as [D | D]; rewrite Zle_Qle, inject_Z_plus in D; change (inject_Z 1) with 1 in D.
  - revert H K. apply Qabs_case; intros C H; rewrite (Qabs_pos (inject_Z z - a)) by lra; intros; lra.
  - revert H K. apply Qabs_case; intros C H; rewrite (Qabs_neg (inject_Z z - a)) by lra; intros; lra.
Qed.

Lemma two_figures_pos k b : (10 <= k)%Z -> 0 < two_figures k b.
Proof.
  intros H. unfold two_figures. apply Qmult_lt_0_compat; [|apply ten_pos]. assert (10 <= inject_Z k) by (change 10 with (inject_Z 10); rewrite <- Zle_Qle; exact H).
  apply Qlt_shift_div_l; lra.
Qed.
Lemma abs_scale s x : 0 < s -> Qabs (x * s) == Qabs x * s.
Proof. intros H. rewrite Qabs_Qmult. rewrite (Qabs_pos s) by lra. reflexivity. Qed.
(** with the exponent [e] of [m] and [u] the nearest number of units 10^(e-1) *)
Lemma shown_core m e u : 10 ^ e <= m -> m < 10 ^ (e + 1) -> u = round_half_even (m * 10 ^ (1 - e)) ->
  (10 <= u <= 100)%Z /\
  (forall k' b', (10 <= k' <= 99)%Z -> Qabs (two_figures u e - m) <= Qabs (two_figures k' b' - m)) /\
  (forall k' b', (10 <= k' <= 99)%Z -> ~ two_figures k' b' == two_figures u e -> Qabs (two_figures k' b' - m) == Qabs (two_figures u e - m) -> Z.even u = true).
Proof.
  intros L U Hu. set (s := 10 ^ (e - 1)). pose proof (ten_pos (e - 1)) as S0. fold s in S0.
  set (a := m * 10 ^ (1 - e)) in *.
  assert (T1 : 10 ^ (1 - e) * s == 1). { unfold s. rewrite <- ten_add. replace (1 - e + (e - 1))%Z with 0%Z by lia. reflexivity. }
  assert (T2 : 10 ^ e == 10 * s). { unfold s. setoid_replace 10 with (10 ^ 1) at 2 by reflexivity. rewrite <- ten_add. replace (1 + (e - 1))%Z with e by lia. reflexivity. }
  assert (T3 : 10 ^ (e + 1) == 100 * s). { rewrite ten_add, T2. change (10 ^ 1) with 10. ring. }
  assert (A : m == a * s). { unfold a. rewrite <- Qmult_assoc, T1. ring. }
  assert (AL : 10 <= a). { apply (Qmult_le_r _ _ s); [exact S0|]. rewrite <- A, <- T2. exact L. }
  assert (AU : a < 100). { apply (Qmult_lt_r _ _ s); [exact S0|]. rewrite <- A, <- T3. exact U. }
  destruct (round_half_even_spec a ltac:(lra)) as (_ & R). rewrite <- Hu in R.
  assert (UL : (10 <= u)%Z).
  { destruct (Z_le_gt_dec 10 u) as [X | X]; [exact X|exfalso]. assert (inject_Z u <= 9) by (change 9 with (inject_Z 9); rewrite <- Zle_Qle; lia).
    rewrite Qabs_neg in R by lra. lra. }
  assert (UU : (u <= 100)%Z).
  { destruct (Z_le_gt_dec u 100) as [X | X]; [exact X|exfalso]. assert (101 <= inject_Z u) by (change 101 with (inject_Z 101); rewrite <- Zle_Qle; lia).
    rewrite Qabs_pos in R by lra. lra. }
  assert (TF : two_figures u e == inject_Z u * s). { unfold two_figures. rewrite T2. field. }
  assert (D : Qabs (two_figures u e - m) == Qabs (inject_Z u - a) * s).
  { rewrite TF, A. setoid_replace (inject_Z u * s - a * s) with ((inject_Z u - a) * s) by ring. apply abs_scale. exact S0. }
  (* another number is an integer z of units, or below 10 units *)
  assert (Y : forall k' b', (10 <= k' <= 99)%Z -> (exists z, two_figures k' b' == inject_Z z * s) \/ two_figures k' b' < 10 * s).
  { intros k' b' Hk. destruct (Z_le_gt_dec e b') as [X | X].
    - left. exists (k' * 10 ^ (b' - e))%Z. unfold two_figures. rewrite inject_Z_mult, ten_Z by lia.
      replace b' with (b' - e + e)%Z at 1 by lia. rewrite ten_add, T2. field.
    - right. rewrite <- T2. unfold two_figures. assert (inject_Z k' <= 99) by (change 99 with (inject_Z 99); rewrite <- Zle_Qle; lia).
      assert (10 ^ (b' + 1) <= 10 ^ e) by (apply ten_le; lia). rewrite ten_add in H0. change (10 ^ 1) with 10 in H0.
      pose proof (ten_pos b'). set (t := 10 ^ b') in *. assert (inject_Z k' / 10 * t <= 99 / 10 * t).
      { apply Qmult_le_compat_r; [|lra]. unfold Qdiv. apply Qmult_le_compat_r; [assumption|discriminate]. }
      assert (99 / 10 * t == (99 # 10) * t) by reflexivity. lra. }
  assert (Z10 : Qabs (inject_Z u - a) <= a - 10).
  { pose proof (Z_near u 10 a R) as X. rewrite (Qabs_neg (inject_Z 10 - a)) in X by (change (inject_Z 10) with 10; lra). change (inject_Z 10) with 10 in X. lra. }
  assert (Below : forall k' b', two_figures k' b' < 10 * s -> Qabs (two_figures u e - m) < Qabs (two_figures k' b' - m)).
  { intros k' b' B. rewrite D. rewrite (Qabs_neg (two_figures k' b' - m)) by (assert (10 * s <= a * s) by (apply Qmult_le_compat_r; lra); lra).
    assert (Qabs (inject_Z u - a) * s <= (a - 10) * s) by (apply Qmult_le_compat_r; lra). lra. }
  split; [lia|split].
  - intros k' b' Hk. destruct (Y k' b' Hk) as [(z & Hz) | B]; [|apply Qlt_le_weak, Below, B].
    rewrite D, Hz, A. setoid_replace (inject_Z z * s - a * s) with ((inject_Z z - a) * s) by ring. rewrite abs_scale by exact S0.
    apply Qmult_le_compat_r; [|lra]. apply Z_near. exact R.
  - intros k' b' Hk Nq Eq'. destruct (Y k' b' Hk) as [(z & Hz) | B]; [|exfalso; pose proof (Below k' b' B); lra].
    assert (Nz : z <> u). { intros ->. apply Nq. rewrite Hz, TF. reflexivity. }
    rewrite D, Hz, A in Eq'. setoid_replace (inject_Z z * s - a * s) with ((inject_Z z - a) * s) in Eq' by ring. rewrite abs_scale in Eq' by exact S0.
    apply Qmult_inj_r in Eq'; [|lra]. pose proof (Z_tie u z a R Nz ltac:(lra)) as T. subst u. apply rhe_tie. exact T.
Qed.
Lemma two_digits_shown m k b : 0 < m -> two_digits m = (k, b) -> shown m k b.
Proof.
  intros H W. unfold two_digits in W. destruct (Qeq_bool m 0) eqn:Z0; [apply Qeq_bool_iff in Z0; lra|].
  destruct (exponent10_spec m H) as (L & U). set (e := exponent10 m) in *. cbv zeta in W.
  destruct (shown_core m e _ L U eq_refl) as (A & B & C). set (u := round_half_even (m * 10 ^ (1 - e))) in *.
  destruct (u =? 100)%Z eqn:E100; injection W as <- <-.
  - apply Z.eqb_eq in E100. rewrite E100 in *. assert (T : two_figures 10 (e + 1) == two_figures 100 e).
    { unfold two_figures. rewrite ten_add. change (10 ^ 1) with 10. change (inject_Z 10) with 10. change (inject_Z 100) with 100. field. }
    split; [lia|split].
    + intros. rewrite T. apply B. assumption.
    + intros. reflexivity.
  - apply Z.eqb_neq in E100. split; [lia|split; assumption].
Qed.

(** ** The text *)
Lemma is_digit_a c : is_digit c -> a_digit c.
Proof. intros (d & Hd & ->). ten Hd; unfold a_digit; split; vm_compute; discriminate. Qed.
Lemma a_digit_digit d : (0 <= d < 10)%Z -> a_digit (digit d) /\ (code (digit d) = d + 48)%Z.
Proof. intros H. ten H; (split; [unfold a_digit; split|]); vm_compute; (reflexivity || discriminate). Qed.
Lemma digit_not_e c : is_digit c -> Ascii.eqb c "e" = false.
Proof. intros (d & Hd & ->). ten Hd. Qed.
Lemma split_at_none c a : forall w, List.Forall (fun x => Ascii.eqb x c = false) a -> split_at c w a = [rev (rev a ++ w)].
Proof. induction a as [|x a IH]; intros w H; [reflexivity|]. inversion H; subst. cbn [split_at]. rewrite H2, IH by assumption. cbn [rev]. rewrite <- app_assoc. reflexivity. Qed.
Lemma split_at_one c a b : forall w, List.Forall (fun x => Ascii.eqb x c = false) a -> split_at c w (a ++ c :: b) = rev (rev a ++ w) :: split_at c [] b.
Proof.
  induction a as [|x a IH]; intros w H.
  - cbn. rewrite Ascii.eqb_refl. reflexivity.
  - inversion H; subst. cbn [app split_at]. rewrite H2, IH by assumption. cbn [rev]. rewrite <- app_assoc. reflexivity.
Qed.
Lemma split_two c a b : List.Forall (fun x => Ascii.eqb x c = false) a -> List.Forall (fun x => Ascii.eqb x c = false) b -> split c (a ++ c :: b) = [a; b].
Proof.
  intros A B. unfold split. rewrite split_at_one by exact A. rewrite (split_at_none c b [] B). rewrite !app_nil_r, !rev_involutive. reflexivity.
Qed.
Lemma zeros_value n l : value 0 (repeat "0"%char n ++ l) = value 0 l.
Proof. rewrite value_app. f_equal. induction n; [reflexivity|]. cbn [repeat]. unfold value in *. cbn [fold_left]. exact IHn. Qed.
Lemma zeros_digit n : List.Forall is_digit (repeat "0"%char n).
Proof. apply Forall_forall. intros x H. apply repeat_spec in H. subst. exists 0%Z. split; [lia|reflexivity]. Qed.
Lemma parse_exponent_text e : parse_int (print_exponent e) = Ok e.
Proof.
  unfold print_exponent, parse_int. destruct (print_nat_spec (Z.abs e) ltac:(lia)) as (D & N & V).
  set (d := print_nat (Z.abs e)) in *. set (z := repeat "0"%char (2 - List.length d)).
  assert (Dz : List.Forall is_digit (z ++ d)) by (apply Forall_app; split; [apply zeros_digit|exact D]).
  assert (X : parse_digits 0 0 (z ++ d) = (Z.abs e, List.length (z ++ d), [])).
  { rewrite <- (app_nil_r (z ++ d)) at 1. rewrite parse_digits_app by exact Dz. cbn [parse_digits]. unfold z. rewrite zeros_value, V. rewrite Nat.add_0_l. reflexivity. }
  assert (NE : exists n, List.length (z ++ d) = S n). { destruct (z ++ d) eqn:Y; [|eexists; reflexivity]. apply app_eq_nil in Y. tauto. }
  destruct NE as (n & NE). rewrite NE in X.
  destruct (e <? 0)%Z eqn:S0.
  - cbn [app]. cbv beta iota. rewrite X. f_equal. apply Z.ltb_lt in S0. lia.
  - cbn [app]. cbv beta iota. rewrite X. f_equal. apply Z.ltb_ge in S0. lia.
Qed.
Lemma no_e_exponent e : List.Forall (fun x => Ascii.eqb x "e" = false) (print_exponent e).
Proof.
  unfold print_exponent. constructor; [destruct (e <? 0)%Z; reflexivity|]. apply Forall_app. split.
  - eapply Forall_impl; [|apply zeros_digit]. apply digit_not_e.
  - eapply Forall_impl; [|apply (proj1 (print_nat_spec (Z.abs e) ltac:(lia)))]. apply digit_not_e.
Qed.
Definition mantissa (neg : bool) (u : Z) : text := ((if neg then ["-"%char] else []) ++ print_nat (u / 10) ++ ["."%char] ++ digits 1 u)%list.
Lemma print_small d : (0 <= d < 10)%Z -> print_nat d = [digit d].
Proof. intros H. ten H. Qed.
Lemma mantissa_chars neg u : (0 <= u < 100)%Z -> mantissa neg u = ((if neg then ["-"%char] else []) ++ [digit (u / 10); "."%char; digit (u mod 10)])%list.
Proof.
  intros H. unfold mantissa. rewrite print_small by (split; [apply Z.div_pos; lia|apply Z.div_lt_upper_bound; lia]). reflexivity.
Qed.
Lemma mantissa_no_e neg u : (0 <= u < 100)%Z -> List.Forall (fun x => Ascii.eqb x "e" = false) (mantissa neg u).
Proof.
  intros H. rewrite mantissa_chars by exact H. apply Forall_app. split; [destruct neg; repeat constructor|].
  constructor; [|constructor; [reflexivity|constructor; [|constructor]]].
  - apply digit_not_e. eexists; split; [|reflexivity]. split; [apply Z.div_pos; lia|apply Z.div_lt_upper_bound; lia].
  - apply digit_not_e. eexists; split; [|reflexivity]. apply Z.mod_pos_bound. lia.
Qed.
Lemma text_eqb_refl a : text_eqb a a = true.
Proof. induction a as [|x a IH]; [reflexivity|]. cbn. rewrite Ascii.eqb_refl. exact IH. Qed.
Lemma fmt_text neg m k b : two_digits m = (k, b) -> (0 <= k < 100)%Z ->
  fmt neg m = if text_eqb (mantissa neg k) (txt "0.0") then Ok (["$"%char] ++ mantissa neg k ++ ["$"%char])%list
              else Ok (["$"%char] ++ mantissa neg k ++ txt "$e$" ++ print_Z b ++ ["$"%char])%list.
Proof.
  intros W H. unfold fmt, format_1e. rewrite W.
  replace ((if neg then ["-"%char] else []) ++ print_nat (k / 10) ++ ["."%char] ++ digits 1 k ++ ["e"%char] ++ print_exponent b)%list
    with (mantissa neg k ++ "e"%char :: print_exponent b)%list by (unfold mantissa; rewrite <- !app_assoc; reflexivity).
  rewrite split_two; [|apply mantissa_no_e; exact H|apply no_e_exponent].
  rewrite parse_exponent_text. reflexivity.
Qed.
Lemma strip0_head l : l <> [] -> List.Forall is_digit l -> strip0 l = ["0"%char] \/ hd "0"%char (strip0 l) <> "0"%char.
Proof.
  induction l as [|c l IH]; [congruence|]. intros _ H. inversion H; subst. cbn [strip0]. destruct l as [|d l].
  - destruct (Ascii.eqb c "0") eqn:C; [apply Ascii.eqb_eq in C; subst; left; reflexivity|]. right. cbn. intros ->. discriminate.
  - destruct (Ascii.eqb c "0") eqn:C; [apply IH; [discriminate|assumption]|]. right. cbn [hd]. intros ->. discriminate.
Qed.
Lemma print_Z_integer b : integer_text (print_Z b).
Proof.
  assert (X : forall n, (0 <= n)%Z -> List.Forall a_digit (print_nat n) /\ print_nat n <> [] /\ (print_nat n = ["0"%char] \/ hd "0"%char (print_nat n) <> "0"%char)).
  { intros n H. destruct (print_nat_spec n H) as (D & N & V). split; [|split; [exact N|]].
    - eapply Forall_impl; [|exact D]. apply is_digit_a.
    - apply strip0_head; [|apply digits_digit]. intros Y. apply (f_equal (@List.length ascii)) in Y. rewrite digits_length in Y. discriminate. }
  unfold print_Z. destruct (b <? 0)%Z eqn:S0.
  - destruct (X (- b)%Z ltac:(apply Z.ltb_lt in S0; lia)) as (D & N & V). exists ["-"%char], (print_nat (- b)). repeat split; try assumption. right; reflexivity.
  - destruct (X b ltac:(apply Z.ltb_ge in S0; lia)) as (D & N & V). exists [], (print_nat b). repeat split; try assumption. left; reflexivity.
Qed.
Lemma decimal_ext w p q : p == q -> decimal w p -> decimal w q.
Proof. intros H (sg & s & ip & dot & fp & ex & e & A & B & C & D & E' & F & G & I). exists sg, s, ip, dot, fp, ex, e. repeat (split; [assumption|]). rewrite <- H. exact I. Qed.
Lemma print_Z_decimal b : decimal (print_Z b) (inject_Z b).
Proof. destruct (parse_print_Z b) as (q & P & V). apply (decimal_ext _ q); [exact V|]. apply parse_float_sound. exact P. Qed.

Theorem tick_labels neg m : 0 < m -> exists k b w, fmt neg m = Ok w /\ tick_label w neg k b /\ shown m k b.
Proof.
  intros H. destruct (two_digits m) as (k, b) eqn:W. pose proof (two_digits_shown m k b H W) as Sh. destruct Sh as (K & Sh). 
  exists k, b. rewrite (fmt_text neg m k b W) by lia.
  assert (D1 : (1 <= k / 10 < 10)%Z) by (split; [apply Z.div_le_lower_bound; lia|apply Z.div_lt_upper_bound; lia]).
  assert (D2 : (0 <= k mod 10 < 10)%Z) by (apply Z.mod_pos_bound; lia).
  destruct (text_eqb (mantissa neg k) (txt "0.0")) eqn:T0.
  { exfalso. rewrite mantissa_chars in T0 by lia. destruct neg; cbn in T0; [discriminate|]. apply andb_true_iff in T0. destruct T0 as (T0 & _).
    apply Ascii.eqb_eq in T0. pose proof (proj2 (a_digit_digit (k / 10) ltac:(lia))) as C. change (digit (k / 10) = "0"%char) in T0. rewrite T0 in C. change (code "0"%char) with 48%Z in C. lia. }
  eexists. split; [reflexivity|]. split; [|split; assumption].
  exists (digit (k / 10)), (digit (k mod 10)), (print_Z b). rewrite mantissa_chars by lia.
  split; [destruct neg; reflexivity|]. destruct (a_digit_digit (k / 10) ltac:(lia)) as (A1 & A2). destruct (a_digit_digit (k mod 10) ltac:(lia)) as (B1 & B2).
  split; [exact A1|]. split; [exact B1|]. split; [intros Y; rewrite Y in A2; change (code "0"%char) with 48%Z in A2; lia|].
  split; [rewrite A2, B2; pose proof (Z.div_mod k 10 ltac:(lia)); lia|]. split; [apply print_Z_integer|apply print_Z_decimal].
Qed.
Theorem tick_label_zero : forall m, m == 0 -> fmt false m = Ok (chars "$0.0$") /\ fmt true m = Ok (chars "$-0.0$e$0$").
Proof.
  intros m H. assert (W : two_digits m = (0, 0)%Z). { unfold two_digits. apply Qeq_bool_iff in H. rewrite H. reflexivity. }
  rewrite !(fmt_text _ m 0 0 W) by lia. split; reflexivity.
Qed.

(** ** Memory *)
Lemma parse_unsigned_frac2 u : (0 <= u)%Z -> exists q, parse_float (print_nat (u / 100) ++ ["."%char] ++ digits 2 u) = Some q /\ q == inject_Z u / 100.
Proof.
  intros H. assert (H1 : (0 <= u / 100)%Z) by (apply Z.div_pos; lia).
  destruct (print_nat_spec (u / 100) H1) as (D & N & V).
  rewrite head_digit by assumption. unfold parse_unsigned. rewrite parse_digits_app by exact D. rewrite V. cbn [parse_digits app].
  change (digit_value "."%char) with (@None Z). cbv beta iota.
  assert (X : parse_digits (u / 100) 0 (digits 2 u) = (u, 2%nat, [])).
  { rewrite <- (app_nil_r (digits 2 u)). rewrite parse_digits_app by apply digits_digit. cbn [parse_digits]. rewrite value_digits. rewrite digits_length.
    change (10 ^ Z.of_nat 2)%Z with 100%Z. pose proof (Z.div_mod u 100 ltac:(lia)). f_equal. f_equal. lia. }
  rewrite X. rewrite Nat.add_0_l. destruct ((List.length (print_nat (u / 100)) + 2 =? 0)%nat) eqn:Y; [apply Nat.eqb_eq in Y; lia|].
  eexists. split; [reflexivity|]. reflexivity.
Qed.
Lemma digits2_chars u : exists c d, digits 2 u = [c; d] /\ a_digit c /\ a_digit d.
Proof.
  pose proof (digits_digit 2 u) as H. pose proof (digits_length 2 u) as L. destruct (digits 2 u) as [|c [|d [|]]]; try discriminate.
  inversion H; subst. inversion H3; subst. exists c, d. split; [reflexivity|]. split; apply is_digit_a; assumption.
Qed.
Theorem memory_text b : (0 <= b)%Z -> exists ip c d q, memory_usage (Series b) = (ip ++ ["."%char; c; d] ++ chars " MB")%list /\
  List.Forall a_digit ip /\ ip <> [] /\ a_digit c /\ a_digit d /\ decimal (ip ++ ["."%char; c; d]) q /\ Qabs (q - inject_Z b / 1048576) <= 5 # 1000.
Proof.
  intros H. unfold memory_usage, format_2f. change (1024 ^ 2)%Z with 1048576%Z.
  set (x := inject_Z b / inject_Z 1048576). assert (X0 : 0 <= x). { unfold x. apply Qle_shift_div_l; [reflexivity|]. rewrite Qmult_0_l. change 0 with (inject_Z 0). rewrite <- Zle_Qle. exact H. }
  destruct (round_half_even_spec (x * 100) ltac:(lra)) as (U0 & R). set (u := round_half_even (x * 100)) in *.
  destruct (digits2_chars u) as (c & d & E2 & A & B). destruct (print_nat_spec (u / 100) ltac:(apply Z.div_pos; lia)) as (D & N & V).
  destruct (parse_unsigned_frac2 u U0) as (q & P & Q2). exists (print_nat (u / 100)), c, d, q. rewrite E2 in *.
  split; [rewrite <- !app_assoc; reflexivity|]. split; [eapply Forall_impl; [|exact D]; apply is_digit_a|]. split; [exact N|]. split; [exact A|]. split; [exact B|].
  split; [apply parse_float_sound; exact P|]. rewrite Q2.
  setoid_replace (inject_Z u / 100 - inject_Z b / 1048576) with ((inject_Z u - x * 100) * (1 # 100)) by (unfold x; change (inject_Z 1048576) with 1048576; field).
  rewrite abs_scale by reflexivity. lra.
Qed.
Theorem memory_frame l : memory_usage (DataFrame l) = memory_usage (Series (fold_right Z.add 0%Z l)).
Proof. reflexivity. Qed.

Theorem within_five_percent m k b : 0 < m -> shown m k b -> Qabs (two_figures k b - m) <= (5 # 100) * m.
Proof.
  intros H (K & N & _). destruct (exponent10_spec m H) as (L & U). set (e := exponent10 m) in *.
  destruct (shown_core m e _ L U eq_refl) as (A & B & _). set (u := round_half_even (m * 10 ^ (1 - e))) in *.
  assert (X : Qabs (two_figures k b - m) <= Qabs (two_figures u e - m)).
  { destruct (Z.eq_dec u 100) as [E100|E100]; [|apply N; lia].
    assert (T : two_figures 10 (e + 1) == two_figures u e).
    { rewrite E100. unfold two_figures. rewrite ten_add. change (10 ^ 1) with 10. change (inject_Z 10) with 10. change (inject_Z 100) with 100. field. }
    rewrite <- T. apply N. lia. }
  eapply Qle_trans; [exact X|]. clear X N B.
  set (s := 10 ^ (e - 1)). pose proof (ten_pos (e - 1)) as S0. fold s in S0.
  assert (T1 : 10 ^ (1 - e) * s == 1). { unfold s. rewrite <- ten_add. replace (1 - e + (e - 1))%Z with 0%Z by lia. reflexivity. }
  assert (T2 : 10 ^ e == 10 * s). { unfold s. setoid_replace 10 with (10 ^ 1) at 2 by reflexivity. rewrite <- ten_add. replace (1 + (e - 1))%Z with e by lia. reflexivity. }
  set (a := m * 10 ^ (1 - e)) in *.
  assert (A' : m == a * s). { unfold a. rewrite <- Qmult_assoc, T1. ring. }
  assert (a0 : 0 <= a). { unfold a. apply Qmult_le_0_compat; [lra|]. apply Qlt_le_weak, ten_pos. }
  destruct (round_half_even_spec a a0) as (_ & R). fold u in R.
  assert (TF : two_figures u e == inject_Z u * s). { unfold two_figures. rewrite T2. field. }
  assert (D : Qabs (two_figures u e - m) == Qabs (inject_Z u - a) * s).
  { rewrite TF, A'. setoid_replace (inject_Z u * s - a * s) with ((inject_Z u - a) * s) by ring. apply abs_scale. exact S0. }
  rewrite D. assert (Qabs (inject_Z u - a) * s <= (1 # 2) * s) by (apply Qmult_le_compat_r; lra). lra.
Qed.
