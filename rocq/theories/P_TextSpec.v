(** The parsers of M_Text read exactly what Spec_Text describes. *)
From Coq Require Import List Arith ZArith QArith Qpower Qfield Ascii String Bool Lia Lqa.
From Verif Require Import M_Text P_Text Spec_Text.
Import ListNotations.
Open Scope Z_scope.

Lemma digit_value_iff c d : digit_value c = Some d <-> a_digit c /\ d = code c - 48.
Proof.
  unfold digit_value, a_digit, code. destruct (Z.leb_spec 48 (Z.of_nat (nat_of_ascii c))), (Z.leb_spec (Z.of_nat (nat_of_ascii c)) 57); cbn [andb];
    split; try discriminate; try (intros [? ?]; try lia; try (subst; reflexivity)).
  intros [= <-]. split; [lia|reflexivity].
Qed.
Lemma digit_value_none c : digit_value c = None <-> ~ a_digit c.
Proof.
  destruct (digit_value c) as [d|] eqn:E; split; try discriminate.
  - apply digit_value_iff in E. destruct E. contradiction.
  - intros _ H. assert (digit_value c = Some (code c - 48)) by (apply digit_value_iff; auto). congruence.
  - reflexivity.
Qed.
Definition val (acc : Z) (l : list ascii) : Z := acc * 10 ^ Z.of_nat (List.length l) + digits_value l.
Lemma val_cons acc c l : val (10 * acc + (code c - 48)) l = val acc (c :: l).
Proof.
  unfold val. cbn [digits_value List.length]. rewrite Nat2Z.inj_succ, Z.pow_succ_r by lia. ring.
Qed.
Lemma val_app acc a b : val (val acc a) b = val acc (a ++ b).
Proof.
  revert acc. induction a as [|c a IH]; intros acc; cbn [app].
  - unfold val at 2. cbn. f_equal. lia.
  - rewrite <- !val_cons. apply IH.
Qed.
Definition stops (r : list ascii) : Prop := match r with [] => True | c :: _ => ~ a_digit c end.
Lemma parse_digits_spec l : forall acc k v j r,
  parse_digits acc k l = (v, j, r) <-> exists ds, l = (ds ++ r)%list /\ Forall a_digit ds /\ v = val acc ds /\ j = (k + List.length ds)%nat /\ stops r.
Proof.
  induction l as [|c l IH]; intros acc k v j r; cbn [parse_digits].
  - split.
    + intros [= <- <- <-]. exists []. cbn. unfold val. cbn. repeat split; try lia. constructor.
    + intros (ds & E & _ & -> & -> & _). destruct ds; [|discriminate]. cbn in E. subst r. unfold val. cbn. f_equal. f_equal; lia.
  - destruct (digit_value c) as [d|] eqn:E.
    + apply digit_value_iff in E. destruct E as [D ->]. rewrite IH. split.
      * intros (ds & -> & F & -> & -> & S). exists (c :: ds). split; [reflexivity|]. split; [constructor; assumption|]. split; [apply val_cons|]. split; [cbn; lia|exact S].
      * intros (ds & E & F & -> & -> & S). destruct ds as [|c' ds]; [cbn in E; subst r; contradiction|]. cbn in E. injection E as <- ->.
        inversion F; subst. exists ds. split; [reflexivity|]. split; [assumption|]. split; [symmetry; apply val_cons|]. split; [cbn; lia|exact S].
    + apply digit_value_none in E. split.
      * intros [= <- <- <-]. exists []. cbn. unfold val. cbn. repeat split; try lia; [constructor|exact E].
      * intros (ds & E' & F & -> & -> & S). destruct ds as [|c' ds]; [|cbn in E'; injection E' as <- _; inversion F; contradiction].
        cbn in E'. subst r. unfold val. cbn. f_equal. f_equal; lia.
Qed.
Lemma val_0 l : val 0 l = digits_value l.
Proof. unfold val. lia. Qed.

Lemma sign_not_digit : ~ a_digit "-" /\ ~ a_digit "+" /\ ~ a_digit "." /\ ~ a_digit "e" /\ ~ a_digit "E".
Proof. unfold a_digit, code. cbn. lia. Qed.

Lemma digits_all ds : Forall a_digit ds -> parse_digits 0 0 ds = (digits_value ds, List.length ds, []).
Proof. intros H. apply parse_digits_spec. exists ds. split; [symmetry; apply app_nil_r|]. split; [exact H|]. split; [symmetry; apply val_0|]. split; [reflexivity|exact I]. Qed.
Lemma exp_digits ds z : (match parse_digits 0 0 ds with (v, S _, []) => Some v | _ => None end) = Some z <->
  Forall a_digit ds /\ ds <> [] /\ z = digits_value ds.
Proof.
  destruct (parse_digits 0 0 ds) as [[v j] r] eqn:E. split.
  - destruct j as [|j]; [discriminate|]. destruct r; [|discriminate]. intros [= <-].
    apply parse_digits_spec in E. destruct E as (d & -> & F & -> & L & _). rewrite app_nil_r, val_0. split; [exact F|]. split; [|reflexivity].
    intros ->. discriminate.
  - intros (F & N & ->). rewrite (digits_all ds F) in E. injection E as <- <- <-. destruct ds; [contradiction|]. reflexivity.
Qed.
Lemma exp_signed (s : Z) ds z : (match parse_digits 0 0 ds with (v, S _, []) => Some (s * v) | _ => None end) = Some z <->
  Forall a_digit ds /\ ds <> [] /\ z = s * digits_value ds.
Proof.
  pose proof (exp_digits ds) as H. destruct (parse_digits 0 0 ds) as [[v j] r]. destruct j as [|j].
  - split; [discriminate|]. intros (A & B & _). exfalso. assert (K : None = Some (digits_value ds)) by (apply (proj2 (H _)); auto). discriminate.
  - destruct r.
    + split.
      * intros [= <-]. destruct (proj1 (H v) eq_refl) as (A & B & ->). auto.
      * intros (A & B & ->). pose proof (proj2 (H (digits_value ds)) (conj A (conj B eq_refl))) as K. injection K as ->. reflexivity.
    + split; [discriminate|]. intros (A & B & _). assert (K : None = Some (digits_value ds)) by (apply (proj2 (H _)); auto). discriminate.
Qed.
Lemma sign_cases r : (exists r', r = "-"%char :: r') \/ (exists r', r = "+"%char :: r') \/
  (forall r', r <> "-"%char :: r') /\ (forall r', r <> "+"%char :: r').
Proof.
  destruct r as [|c r]; [right; right; split; discriminate|].
  destruct (ascii_dec c "-") as [->|N]; [left; eauto|]. destruct (ascii_dec c "+") as [->|M]; [right; left; eauto|].
  right. right. split; intros r' H; congruence.
Qed.
Lemma match_sign {A} r (f g h : list ascii -> A) : (forall r', r <> "-"%char :: r') -> (forall r', r <> "+"%char :: r') ->
  match r with "-"%char :: r' => f r' | "+"%char :: r' => g r' | _ => h r end = h r.
Proof.
  intros N P. destruct r as [|[b0 b1 b2 b3 b4 b5 b6 b7] r]; [reflexivity|].
  destruct b0, b1, b2, b3, b4, b5, b6, b7; try reflexivity; exfalso; [eapply P|eapply N]; reflexivity.
Qed.
Definition split_sign (r : list ascii) : Z * list ascii :=
  match r with "-"%char :: r' => (-1, r') | "+"%char :: r' => (1, r') | _ => (1, r) end.
Lemma split_sign_spec r s ds : Forall a_digit ds -> ds <> [] ->
  ((exists sg, a_sign sg s /\ r = (sg ++ ds)%list) <-> split_sign r = (s, ds)).
Proof.
  intros F D. split.
  - intros (sg & Sg & ->). inversion Sg; subst; try reflexivity. cbn [app].
    apply (match_sign ds (fun r' => (-1, r')) (fun r' => (1, r')) (fun r => (1, r))); intros r' ->; inversion F; subst; pose proof sign_not_digit; tauto.
  - intros E. destruct (sign_cases r) as [[r' ->]|[[r' ->]|[N P]]].
    + cbn in E. injection E as <- ->. eexists. split; [apply sign_minus|reflexivity].
    + cbn in E. injection E as <- ->. eexists. split; [apply sign_plus|reflexivity].
    + unfold split_sign in E. rewrite (match_sign r (fun r' => (-1, r')) (fun r' => (1, r')) (fun r => (1, r)) N P) in E. injection E as <- ->.
      exists []. split; [constructor|reflexivity].
Qed.
Lemma parse_exponent_spec r e : parse_exponent r = Some e <-> an_exponent r e.
Proof.
  destruct r as [|c r]; cbn [parse_exponent].
  - split; [intros [= <-]; constructor|]. intros H. inversion H. reflexivity.
  - destruct (Ascii.eqb c "e" || Ascii.eqb c "E")%bool eqn:O.
    2:{ split; [discriminate|]. intros H. inversion H as [|? ? ? ? [?|?]]; subst; discriminate. }
    assert (Hc : c = "e"%char \/ c = "E"%char) by (apply orb_prop in O; destruct O as [O|O]; apply Ascii.eqb_eq in O; auto).
    fold (split_sign r). destruct (split_sign r) as [s r'] eqn:S. rewrite exp_signed. split.
    + intros (F & D & ->). apply (split_sign_spec r s r' F D) in S. destruct S as (sg & Sg & ->). apply exponent_some; assumption.
    + intros H. inversion H as [|? sg s' ds _ Sg F D]; subst.
      assert (K : split_sign (sg ++ ds) = (s', ds)) by (apply split_sign_spec; [assumption|assumption|exists sg; auto]).
      rewrite K in S. injection S as <- <-. auto.
Qed.

(** ** Numbers *)
Lemma ex_stops ex e : an_exponent ex e -> stops ex /\ match ex with "."%char :: _ => False | _ => True end.
Proof.
  intros H. inversion H as [|c sg s ds Hc]; subst; [split; exact I|]. pose proof sign_not_digit. destruct Hc as [-> | ->]; cbn; tauto.
Qed.
Definition unsigned (w : list ascii) (q : Q) : Prop :=
  exists ip dot fp ex e, w = (ip ++ dot ++ fp ++ ex)%list /\
    List.Forall a_digit ip /\ List.Forall a_digit fp /\ (dot = ["."%char] \/ dot = [] /\ fp = []) /\ (ip ++ fp)%list <> [] /\
    an_exponent ex e /\ (q == inject_Z (digits_value (ip ++ fp)) / 10 ^ Z.of_nat (List.length fp) * 10 ^ e)%Q.
Lemma pow10_Q n : (inject_Z (10 ^ Z.of_nat n) == 10 ^ Z.of_nat n)%Q.
Proof.
  induction n as [|n IH]; [reflexivity|]. rewrite Nat2Z.inj_succ, Z.pow_succ_r, inject_Z_mult by lia.
  unfold Z.succ. rewrite Qpower_plus by discriminate. rewrite IH. change (10 ^ 1)%Q with (10%Q). change (inject_Z 10) with 10%Q. ring.
Qed.
Lemma scaled_eq m e : (scaled m e == m * 10 ^ e)%Q.
Proof. unfold scaled. destruct (Z.eqb_spec e 0) as [->|]; [change (10 ^ 0)%Q with 1%Q; ring|reflexivity]. Qed.
Lemma stops_dot r : stops ("."%char :: r).
Proof. cbn. apply sign_not_digit. Qed.
Lemma match_dot {A} r (f h : list ascii -> A) : match r with "."%char :: _ => False | _ => True end ->
  match r with "."%char :: r' => f r' | _ => h r end = h r.
Proof. destruct r as [|[b0 b1 b2 b3 b4 b5 b6 b7] r]; [reflexivity|]. destruct b0, b1, b2, b3, b4, b5, b6, b7; try reflexivity. intros []. Qed.
Lemma dot_cases r : (exists r', r = "."%char :: r') \/ match r with "."%char :: _ => False | _ => True end.
Proof. destruct r as [|[b0 b1 b2 b3 b4 b5 b6 b7] r]; [right; exact I|]. destruct b0, b1, b2, b3, b4, b5, b6, b7; try (right; exact I). left. eauto. Qed.

Lemma parse_unsigned_sound w q : parse_unsigned w = Some q -> unsigned w q.
Proof.
  unfold parse_unsigned. destruct (parse_digits 0 0 w) as [[a k] r] eqn:E. apply parse_digits_spec in E.
  destruct E as (ip & -> & F & -> & -> & S). cbn [Nat.add]. destruct (dot_cases r) as [[r' ->]|N].
  - destruct (parse_digits (val 0 ip) 0 r') as [[b j] r''] eqn:E. apply parse_digits_spec in E. destruct E as (fp & -> & F' & -> & -> & S').
    cbn [Nat.add]. destruct (Nat.eqb_spec (List.length ip + List.length fp) 0) as [Z|Z]; [discriminate|].
    destruct (parse_exponent r'') as [e|] eqn:X; [|discriminate]. apply parse_exponent_spec in X. cbn [option_map]. intros [= <-].
    exists ip, ["."%char], fp, r'', e. split; [reflexivity|]. split; [exact F|]. split; [exact F'|]. split; [left; reflexivity|]. split.
    { intros K. apply Z. rewrite <- app_length, K. reflexivity. }
    split; [exact X|]. rewrite scaled_eq, val_app, val_0, pow10_Q. reflexivity.
  - rewrite (match_dot r (fun r' => let '(b, j, r'') := parse_digits (val 0 ip) 0 r' in
        if (List.length ip + j =? 0)%nat then None else option_map (scaled (inject_Z b / inject_Z (10 ^ Z.of_nat j))%Q) (parse_exponent r''))
        (fun r => if (List.length ip =? 0)%nat then None else option_map (scaled (inject_Z (val 0 ip))) (parse_exponent r)) N).
    destruct (Nat.eqb_spec (List.length ip) 0) as [Z|Z]; [discriminate|].
    destruct (parse_exponent r) as [e|] eqn:X; [|discriminate]. apply parse_exponent_spec in X. cbn [option_map]. intros [= <-].
    exists ip, [], [], r, e. split; [reflexivity|]. split; [exact F|]. split; [constructor|]. split; [right; auto|]. rewrite app_nil_r. split.
    { intros ->. apply Z. reflexivity. }
    split; [exact X|]. rewrite scaled_eq, val_0. cbn [List.length Z.of_nat]. change (10 ^ 0)%Q with 1%Q. field.
Qed.
Lemma parse_unsigned_complete w q : unsigned w q -> exists q', parse_unsigned w = Some q' /\ (q' == q)%Q.
Proof.
  intros (ip & dot & fp & ex & e & -> & F & F' & D & N & X & Q). destruct (ex_stops _ _ X) as [S S2].
  unfold parse_unsigned. destruct D as [-> | [-> ->]].
  - assert (E : parse_digits 0 0 (ip ++ ["."%char] ++ fp ++ ex) = (val 0 ip, List.length ip, ("."%char :: fp ++ ex)%list)).
    { apply parse_digits_spec. exists ip. split; [reflexivity|]. split; [exact F|]. split; [reflexivity|]. split; [reflexivity|apply stops_dot]. }
    rewrite E. assert (E' : parse_digits (val 0 ip) 0 (fp ++ ex) = (val (val 0 ip) fp, List.length fp, ex)).
    { apply parse_digits_spec. exists fp. auto. }
    rewrite E'. destruct (Nat.eqb_spec (List.length ip + List.length fp) 0) as [Z|Z].
    { exfalso. apply N. destruct ip; [|discriminate]. destruct fp; [reflexivity|discriminate]. }
    apply parse_exponent_spec in X. rewrite X. cbn [option_map]. eexists. split; [reflexivity|].
    rewrite Q, scaled_eq, val_app, val_0, pow10_Q. reflexivity.
  - cbn [app] in *. rewrite app_nil_r in N, Q.
    assert (E : parse_digits 0 0 (ip ++ ex) = (val 0 ip, List.length ip, ex)).
    { apply parse_digits_spec. exists ip. auto. }
    rewrite E. rewrite (match_dot ex (fun r' => let '(b, j, r'') := parse_digits (val 0 ip) 0 r' in
        if (List.length ip + j =? 0)%nat then None else option_map (scaled (inject_Z b / inject_Z (10 ^ Z.of_nat j))%Q) (parse_exponent r''))
        (fun r => if (List.length ip =? 0)%nat then None else option_map (scaled (inject_Z (val 0 ip))) (parse_exponent r)) S2).
    destruct (Nat.eqb_spec (List.length ip) 0) as [Z|Z].
    { exfalso. apply N. destruct ip; [reflexivity|discriminate]. }
    apply parse_exponent_spec in X. rewrite X. cbn [option_map]. eexists. split; [reflexivity|].
    rewrite Q, scaled_eq, val_0. cbn [List.length Z.of_nat]. change (10 ^ 0)%Q with 1%Q. field.
Qed.
Lemma unsigned_head w q : unsigned w q -> (forall r, w <> "-"%char :: r) /\ (forall r, w <> "+"%char :: r).
Proof.
  intros (ip & dot & fp & ex & e & -> & F & _ & D & N & _). pose proof sign_not_digit as (A & B & _).
  destruct ip as [|c ip].
  - destruct D as [-> | [-> ->]]; [|contradiction]. split; intros r K; discriminate.
  - inversion F; subst. split; intros r K; injection K as K _; subst; contradiction.
Qed.
Lemma decimal_split w q : decimal w q <-> exists sg s w' q', w = (sg ++ w')%list /\ a_sign sg s /\ unsigned w' q' /\ (q == inject_Z s * q')%Q.
Proof.
  split.
  - intros (sg & s & ip & dot & fp & ex & e & -> & Sg & F & F' & D & N & X & Q). eexists sg, s, _, _. split; [reflexivity|]. split; [exact Sg|].
    split; [exists ip, dot, fp, ex, e; repeat (split; [first [reflexivity|assumption]|]); reflexivity|]. rewrite Q. ring.
  - intros (sg & s & w' & q' & -> & Sg & (ip & dot & fp & ex & e & -> & F & F' & D & N & X & Q) & Q').
    exists sg, s, ip, dot, fp, ex, e. repeat (split; [first [reflexivity|assumption]|]). rewrite Q', Q. ring.
Qed.
Theorem parse_float_sound w q : parse_float w = Some q -> decimal w q.
Proof.
  intros E. apply decimal_split. destruct (sign_cases w) as [[r ->]|[[r ->]|[N P]]].
  - cbn in E. destruct (parse_unsigned r) as [u|] eqn:U; [|discriminate]. cbn in E. injection E as <-.
    exists ["-"%char], (-1), r, u. split; [reflexivity|]. split; [constructor|]. split; [apply parse_unsigned_sound, U|]. change (inject_Z (-1)) with (-1)%Q. ring.
  - cbn in E. exists ["+"%char], 1, r, q. split; [reflexivity|]. split; [constructor|]. split; [apply parse_unsigned_sound, E|]. change (inject_Z 1) with 1%Q. ring.
  - unfold parse_float in E. rewrite (match_sign w (fun l => option_map Qopp (parse_unsigned l)) parse_unsigned parse_unsigned N P) in E.
    exists [], 1, w, q. split; [reflexivity|]. split; [constructor|]. split; [apply parse_unsigned_sound, E|]. change (inject_Z 1) with 1%Q. ring.
Qed.
Theorem parse_float_complete w q : decimal w q -> exists q', parse_float w = Some q' /\ (q' == q)%Q.
Proof.
  intros D. apply decimal_split in D. destruct D as (sg & s & w' & u & -> & Sg & U & Q).
  destruct (parse_unsigned_complete _ _ U) as (u' & E & Eq). inversion Sg; subst; cbn [app].
  - destruct (unsigned_head _ _ U) as [N P]. unfold parse_float. rewrite (match_sign w' (fun l => option_map Qopp (parse_unsigned l)) parse_unsigned parse_unsigned N P).
    exists u'. split; [exact E|]. rewrite Q, Eq. change (inject_Z 1) with 1%Q. ring.
  - cbn. exists u'. split; [exact E|]. rewrite Q, Eq. change (inject_Z 1) with 1%Q. ring.
  - cbn. rewrite E. eexists. split; [reflexivity|]. rewrite Q, Eq. change (inject_Z (-1)) with (-1)%Q. ring.
Qed.

(** ** Words *)
Lemma is_space_iff c : is_space c = true <-> white c.
Proof.
  unfold white, code. split.
  - unfold is_space. intros H. apply existsb_exists in H. destruct H as (x & H & E). apply Ascii.eqb_eq in E. subst x.
    cbn in H. destruct H as [<-|[<-|[<-|[<-|[<-|[<-|[]]]]]]]; cbn; lia.
  - destruct c as [b0 b1 b2 b3 b4 b5 b6 b7]. destruct b0, b1, b2, b3, b4, b5, b6, b7; cbn; intros H; try reflexivity; exfalso; lia.
Qed.
Lemma not_space c : is_space c = false <-> ~ white c.
Proof. rewrite <- is_space_iff. destruct (is_space c); intuition discriminate. Qed.
Lemma words_white sp l : Forall white sp -> words (sp ++ l) = words l.
Proof. unfold words. induction 1 as [|c sp Hc H IH]; [reflexivity|]. cbn [app words_acc]. rewrite (proj2 (is_space_iff c) Hc). exact IH. Qed.
Lemma words_of_words l ws : words_of l ws -> words l = ws.
Proof.
  induction 1 as [sp H|sp w rest ws Hs Hn Hw Hr H IH].
  - rewrite <- (app_nil_r sp), (words_white sp [] H). reflexivity.
  - rewrite (words_white _ _ Hs). assert (Pw : plain w) by (split; [exact Hn|revert Hw; apply Forall_impl; intros c; apply not_space]).
    destruct Hr as [-> | (c & r & -> & Hc)].
    + rewrite app_nil_r, (words_plain _ Pw). rewrite <- IH. reflexivity.
    + apply is_space_iff in Hc. rewrite (words_space w c r Hc), (words_plain _ Pw). cbn [app]. f_equal. rewrite <- IH.
      unfold words. cbn [words_acc]. rewrite Hc. reflexivity.
Qed.
Lemma words_acc_of l : forall w, Forall (fun c => ~ white c) w ->
  (w = [] -> words_of l (words_acc [] l)) /\ (w <> [] -> exists v rest ws, l = (v ++ rest)%list /\ Forall (fun c => ~ white c) v /\ words_acc w l = (rev w ++ v)%list :: ws /\
    (rest = [] \/ exists c r, rest = c :: r /\ white c) /\ words_of rest ws).
Proof.
  induction l as [|c l IH]; intros w Hw.
  - split; [intros _; apply words_end; constructor|]. intros N. exists [], [], []. split; [reflexivity|]. split; [constructor|].
    split; [cbn; destruct w; [contradiction|rewrite app_nil_r; reflexivity]|]. split; [left; reflexivity|]. apply words_end. constructor.
  - cbn [words_acc]. destruct (is_space c) eqn:S.
    + assert (W : words_of (c :: l) (words_acc [] l)).
      { destruct (IH [] (Forall_nil _)) as [A _]. specialize (A eq_refl). apply is_space_iff in S. inversion A as [sp F E1 E2|sp w' rest ws' F N F' R W E1 E2]; subst.
        - apply words_end. constructor; assumption.
        - rewrite <- E2 in *. change (c :: sp ++ w' ++ rest)%list with ((c :: sp) ++ w' ++ rest)%list. apply words_more; try assumption. constructor; assumption. }
      split; [intros ->; exact W|]. intros N. exists [], (c :: l), (words_acc [] l). split; [reflexivity|]. split; [constructor|].
      split; [destruct w; [contradiction|rewrite app_nil_r; reflexivity]|]. split; [|exact W]. right. exists c, l. split; [reflexivity|]. apply is_space_iff, S.
    + apply not_space in S. assert (Hcw : Forall (fun c => ~ white c) (c :: w)) by (constructor; assumption).
      destruct (IH (c :: w) Hcw) as [_ B]. destruct (B ltac:(discriminate)) as (v & rest & ws & -> & Fv & E & R & W). cbn [rev] in E. rewrite <- app_assoc in E. cbn [app] in E. split.
      * intros ->. cbn [rev app] in E. rewrite E. change (c :: v ++ rest)%list with ([] ++ (c :: v) ++ rest)%list. apply words_more; try assumption; [constructor|discriminate|constructor; assumption].
      * intros N. exists (c :: v), rest, ws. split; [reflexivity|]. split; [constructor; assumption|]. split; [exact E|]. split; assumption.
Qed.
Theorem words_spec l ws : words l = ws <-> words_of l ws.
Proof. split; [intros <-; apply (words_acc_of l [] (Forall_nil _)); reflexivity|apply words_of_words]. Qed.

(** ** Lines *)
Lemma not_in_one l : ~ In newline l <-> one_line l.
Proof.
  unfold one_line. rewrite Forall_forall. split.
  - intros H c Hc. destruct (Ascii.eqb_spec c "010") as [->|]; [contradiction|reflexivity].
  - intros H K. specialize (H _ K). discriminate.
Qed.
Lemma lines_last_line l : one_line l -> l <> [] -> lines l = [l].
Proof.
  intros H N. unfold lines. assert (G : forall a w, one_line a -> lines_acc w a = match (rev a ++ w)%list with [] => [] | _ => [rev (rev a ++ w)] end).
  { induction a as [|c a IH]; intros w Ha; [cbn; destruct w; reflexivity|]. inversion Ha; subst. cbn [lines_acc]. rewrite H2, IH by assumption. cbn [rev]. rewrite <- app_assoc. reflexivity. }
  rewrite (G l [] H), app_nil_r, rev_involutive. destruct (rev l) eqn:E; [|reflexivity]. exfalso. apply N. rewrite <- (rev_involutive l), E. reflexivity.
Qed.
Lemma lines_of_lines l ls : lines_of l ls -> lines l = ls.
Proof.
  induction 1 as [|l N H|l rest ls H Hr IH]; [reflexivity|apply lines_last_line; [apply not_in_one, H|exact N]|].
  apply not_in_one in H. change (l ++ newline :: rest)%list with (l ++ ["010"%char] ++ rest)%list. rewrite (lines_line l rest H), IH. reflexivity.
Qed.
Lemma first_line l : ~ In newline l \/ exists a b, l = (a ++ newline :: b)%list /\ ~ In newline a.
Proof.
  induction l as [|c l [IH|(a & b & -> & IH)]]; [left; intros []| |].
  - destruct (ascii_dec c newline) as [->|N]; [right; exists [], l; split; [reflexivity|intros []]|]. left. intros [K|K]; contradiction.
  - destruct (ascii_dec c newline) as [->|N]; right; [exists [], (a ++ newline :: b)%list; split; [reflexivity|intros []]|].
    exists (c :: a), b. split; [reflexivity|]. intros [K|K]; contradiction.
Qed.
Lemma lines_exist n : forall l, (List.length l <= n)%nat -> exists ls, lines_of l ls.
Proof.
  induction n as [|n IH]; intros l L; [destruct l; [exists []; constructor|cbn in L; lia]|].
  destruct (first_line l) as [H|(a & b & -> & H)].
  - destruct l as [|c l]; [exists []; constructor|]. exists [c :: l]. apply lines_last; [discriminate|exact H].
  - destruct (IH b) as [ls K]; [rewrite app_length in L; cbn in L; lia|]. exists (a :: ls). apply lines_more; assumption.
Qed.
Theorem lines_spec l ls : lines l = ls <-> lines_of l ls.
Proof.
  split; [|apply lines_of_lines]. intros <-. destruct (lines_exist (List.length l) l (le_n _)) as [ls K]. rewrite (lines_of_lines _ _ K). exact K.
Qed.
