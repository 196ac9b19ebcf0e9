(** Writing and reading back an SHC file. *)
From Coq Require Import List Arith ZArith QArith Qabs Qround Ascii String Bool Lia Lqa.
From Verif Require Import M_Prelude M_Time M_Text M_SHC P_Text Spec_SHC.
Import ListNotations.

(** ** Formatting of a value *)
Definition neg_q (x : Q) : bool := if Qlt_le_dec x 0 then true else false.
Definition unit_q (x : Q) : Z := round_half_even (Qabs x * 100000000).
Lemma unit_nonneg x : (0 <= unit_q x)%Z.
Proof. apply round_half_even_spec. apply Qmult_le_0_compat; [apply Qabs_nonneg|discriminate]. Qed.
Lemma fmt_q_core x : fmt_q x = pad 16 (core8 (neg_q x) (unit_q x)).
Proof. reflexivity. Qed.

Lemma parse_fmt x : exists q, parse_float (core8 (neg_q x) (unit_q x)) = Some q /\ eight_decimals x q.
Proof.
  destruct (parse_core8 (neg_q x) (unit_q x) (unit_nonneg x)) as (q & E & H). exists q. split; [exact E|].
  assert (A : (0 <= Qabs x * 100000000)%Q) by (apply Qmult_le_0_compat; [apply Qabs_nonneg|discriminate]).
  destruct (round_half_even_spec _ A) as [_ B]. fold (unit_q x) in B.
  exists (if neg_q x then - unit_q x else unit_q x)%Z. split; [exact H|].
  apply Qabs_Qle_condition in B. apply Qabs_Qle_condition.
  assert (U : (unit_q x # 100000000 == inject_Z (unit_q x) * (1 # 100000000))%Q) by (unfold Qeq; cbn; lia).
  assert (U' : (- unit_q x # 100000000 == - (inject_Z (unit_q x) * (1 # 100000000)))%Q) by (unfold Qeq; cbn; lia).
  unfold neg_q in *. destruct (Qlt_le_dec x 0) as [L|L].
  - rewrite Qabs_neg in B by lra. rewrite U' in H. rewrite H. lra.
  - rewrite Qabs_pos in B by lra. rewrite U in H. rewrite H. lra.
Qed.

(** ** Writer *)
Lemma emit_ok o t : emit (o, None) t = ((o ++ t)%list, None).
Proof. reflexivity. Qed.
Lemma emit_err o e t : emit (o, Some e) t = (o, Some e).
Proof. reflexivity. Qed.

Lemma write_times lp l ys : mapM (fun t => mjd_to_dyear t (Some lp)) l = Ok ys -> forall o,
  fold_left (fun w t => match mjd_to_dyear t (Some lp) with
                        | Err e => raise_ w e
                        | Ok y => emit w (txt " " ++ fmt_q y)%list
                        end) l (o, None) = ((o ++ flat_map (fun y => txt " " ++ fmt_q y) ys)%list, None).
Proof.
  revert ys. induction l as [|t l IH]; intros ys E o; cbn [mapM] in E.
  - injection E as <-. cbn. rewrite app_nil_r. reflexivity.
  - destruct (mjd_to_dyear t (Some lp)) as [y|] eqn:Ey; [|discriminate]. cbn [bind] in E.
    destruct (mapM _ l) as [ys'|] eqn:Em; [|discriminate]. cbn [bind] in E. injection E as <-.
    cbn [fold_left]. rewrite Ey, emit_ok, (IH ys' eq_refl). cbn [flat_map]. rewrite <- app_assoc. reflexivity.
Qed.

Definition row_text (rows : nat) (at_ : nat -> nat -> Q) (col : nat) (nm : nat * Z) : text :=
  (print_Z (Z.of_nat (fst nm)) ++ txt " " ++ print_Z (snd nm) ++ flat_map (fun i => txt " " ++ fmt_q (at_ i col)) (seq 0 rows))%list.

Lemma write_rows rows cols first at_ D : forall k o, (k + List.length D <= cols)%nat ->
  fold_left (fun '(row, w) '(n, m) =>
         let w := emit w (print_Z (Z.of_nat n) ++ txt " " ++ print_Z m)%list in
         let w := if (row <? cols)%nat
                  then emit w (flat_map (fun i => txt " " ++ fmt_q (at_ i (first + row)%nat)) (seq 0 rows))%list
                  else raise_ w IndexError in
         (S row, emit w nl)) D (k, (o, None)) =
  ((k + List.length D)%nat, ((o ++ flat_map (fun '(j, nm) => row_text rows at_ (first + j) nm ++ nl) (combine (seq k (List.length D)) D))%list, None)).
Proof.
  induction D as [|[n m] D IH]; intros k o H.
  - cbn. rewrite Nat.add_0_r, app_nil_r. reflexivity.
  - cbn [List.length] in *. cbn [fold_left]. rewrite emit_ok. destruct (Nat.ltb_spec k cols); [|lia]. rewrite !emit_ok.
    rewrite IH by lia. cbn [seq combine flat_map]. f_equal; [lia|]. f_equal. unfold row_text. cbn [fst snd]. rewrite <- !app_assoc. reflexivity.
Qed.

(** ** degrees and orders *)
Definition blk (n : nat) : list (nat * Z) := (n, 0%Z) :: flat_map (fun m => [(n, Z.of_nat m); (n, (- Z.of_nat m)%Z)]) (seq 1 n).
Lemma deg_ord_S nmin nmax : (nmin <= S nmax)%nat -> deg_ord nmin (S nmax) = (deg_ord nmin nmax ++ blk (S nmax))%list.
Proof.
  intros H. unfold deg_ord. replace (S nmax + 1 - nmin)%nat with (nmax + 1 - nmin + 1)%nat by lia.
  rewrite seq_app, flat_map_app. f_equal. cbn [seq flat_map]. rewrite app_nil_r. replace (nmin + (nmax + 1 - nmin))%nat with (S nmax) by lia. reflexivity.
Qed.
Lemma pairs_length n l : List.length (flat_map (fun m => [(n, Z.of_nat m); (n, (- Z.of_nat m)%Z)]) l : list (nat * Z)) = (2 * List.length l)%nat.
Proof. induction l as [|a l IH]; [reflexivity|]. cbn [flat_map app List.length]. rewrite IH. lia. Qed.
Lemma blk_length n : List.length (blk n) = (2 * n + 1)%nat.
Proof. unfold blk. cbn [List.length]. rewrite pairs_length, seq_length. lia. Qed.
Lemma deg_ord_length nmin nmax : (nmin <= nmax + 1)%nat -> (List.length (deg_ord nmin nmax) + nmin * nmin = (nmax + 1) * (nmax + 1))%nat.
Proof.
  induction nmax as [|nmax IH]; intros H.
  - destruct nmin as [|[|]]; [reflexivity|reflexivity|lia].
  - destruct (Nat.eq_dec nmin (S nmax + 1)) as [ -> |N].
    + unfold deg_ord. rewrite Nat.sub_diag. reflexivity.
    + rewrite deg_ord_S, app_length, blk_length by lia. specialize (IH ltac:(lia)). nia.
Qed.
Lemma deg_ord_nth nmin nmax n j nm : (1 <= nmin <= n)%nat -> (n <= nmax)%nat -> nth_error (blk n) j = Some nm ->
  nth_error (deg_ord nmin nmax) (n * n - nmin * nmin + j) = Some nm.
Proof.
  intros H1 H2 E. induction nmax as [|nmax IH]; [lia|].
  assert (J : (j < 2 * n + 1)%nat) by (rewrite <- (blk_length n); apply nth_error_Some; congruence).
  rewrite deg_ord_S by lia. pose proof (deg_ord_length nmin nmax ltac:(lia)) as L.
  destruct (Nat.eq_dec n (S nmax)) as [ -> |N].
  - rewrite nth_error_app2 by nia. replace (S nmax * S nmax - nmin * nmin + j - List.length (deg_ord nmin nmax))%nat with j by nia. exact E.
  - rewrite nth_error_app1 by nia. apply IH. lia.
Qed.
Lemma blk_pairs (n : nat) : forall k l m, (k <= m < k + l)%nat ->
  nth_error (flat_map (fun m => [(n, Z.of_nat m); (n, (- Z.of_nat m)%Z)]) (seq k l)) (2 * (m - k)) = Some (n, Z.of_nat m) /\
  nth_error (flat_map (fun m => [(n, Z.of_nat m); (n, (- Z.of_nat m)%Z)]) (seq k l)) (2 * (m - k) + 1) = Some (n, (- Z.of_nat m)%Z).
Proof.
  intros k l. revert k. induction l as [|l IH]; intros k m H; [lia|]. cbn [seq flat_map app].
  destruct (Nat.eq_dec m k) as [ -> |N]; [rewrite Nat.sub_diag; split; reflexivity|].
  replace (2 * (m - k))%nat with (S (S (2 * (m - S k)))) by lia. cbn [nth_error Nat.add]. apply IH. lia.
Qed.
Lemma blk_g n m : (m <= n)%nat -> nth_error (blk n) (if (m =? 0)%nat then 0 else 2 * m - 1)%nat = Some (n, Z.of_nat m).
Proof.
  intros H. destruct (Nat.eqb_spec m 0) as [ -> |N]; [reflexivity|]. replace (2 * m - 1)%nat with (S (2 * (m - 1))) by lia. cbn [blk nth_error].
  apply blk_pairs. lia.
Qed.
Lemma blk_h n m : (1 <= m <= n)%nat -> nth_error (blk n) (2 * m)%nat = Some (n, (- Z.of_nat m)%Z).
Proof.
  intros H. replace (2 * m)%nat with (S (2 * (m - 1) + 1)) by lia. cbn [blk nth_error]. apply (blk_pairs n 1 n m). lia.
Qed.

(** ** Reading *)
Lemma floats_all l qs : Forall2 (fun w q => parse_float w = Some q) l qs -> floats l = qs.
Proof. induction 1 as [|w q l qs H _ IH]; [reflexivity|]. cbn [floats]. rewrite H, IH. reflexivity. Qed.

Lemma lstrip_spaces n l : lstrip (spaces n ++ l) = lstrip l.
Proof. induction n as [|n IH]; [reflexivity|]. exact IH. Qed.
Lemma lstrip_plain w r : plain w -> lstrip (w ++ r) = (w ++ r)%list.
Proof. intros [N H]. destruct w as [|c w]; [contradiction|]. inversion H; subst. cbn [app lstrip]. rewrite H2. reflexivity. Qed.
Definition not_hash (w : text) : Prop := match w with c :: _ => Ascii.eqb "#" c = false | [] => True end.
Lemma not_comment n w r : plain w -> not_hash w -> is_comment ["#"%char] (spaces n ++ w ++ r) = false.
Proof.
  intros P H. unfold is_comment. rewrite lstrip_spaces, lstrip_plain by exact P. destruct P as [N _]. destruct w as [|c w]; [contradiction|].
  cbn [app prefix]. unfold not_hash in H. rewrite H. reflexivity.
Qed.
Lemma digit_not_hash c : is_digit c -> Ascii.eqb "#" c = false.
Proof. intros (d & H & ->). ten H. Qed.
Lemma core8_not_hash neg u : (0 <= u)%Z -> not_hash (core8 neg u).
Proof.
  intros H. destruct (print_nat_spec (u / 100000000) ltac:(apply Z.div_pos; lia)) as (D & N & V). unfold core8.
  destruct neg; [reflexivity|]. cbn [app]. destruct (print_nat (u / 100000000)) as [|c l]; [contradiction|].
  inversion D; subst. apply digit_not_hash. assumption.
Qed.
Lemma print_Z_not_hash n : not_hash (print_Z n).
Proof.
  unfold print_Z. destruct (Z.ltb_spec n 0) as [L|L]; [reflexivity|].
  destruct (print_nat_spec n L) as (D & N & V). destruct (print_nat n) as [|c l]; [contradiction|].
  inversion D; subst. apply digit_not_hash. assumption.
Qed.

Lemma load_comments l st : Forall (fun h => is_comment ["#"%char] h = true) l -> fold_left (load_line ["#"%char]) l st = st.
Proof. induction 1 as [|h l H _ IH]; [reflexivity|]. cbn [fold_left]. unfold load_line at 2. rewrite H. exact IH. Qed.
Lemma load_data l v d : Forall (fun h => is_comment ["#"%char] h = false) l ->
  fold_left (load_line ["#"%char]) l (Some v, d) = (Some v, (d ++ flat_map fromstring l)%list).
Proof.
  intros H. revert d. induction H as [|h l H _ IH]; intros d; [cbn; rewrite app_nil_r; reflexivity|].
  cbn [fold_left]. unfold load_line at 2. rewrite H, IH. cbn [flat_map]. rewrite app_assoc. reflexivity.
Qed.

Lemma chunk_concat w (ls : list (list Q)) : (0 < w)%nat -> Forall (fun l => List.length l = w) ls ->
  forall fuel, (List.length (List.concat ls) <= fuel)%nat -> chunk fuel w (List.concat ls) = ls.
Proof.
  intros Hw. induction 1 as [|l ls H _ IH]; intros fuel F.
  - destruct fuel; reflexivity.
  - cbn [List.concat] in *. rewrite app_length in F. destruct fuel as [|fuel]; [lia|]. cbn [chunk].
    destruct (l ++ List.concat ls)%list eqn:E; [apply app_eq_nil in E; destruct E; subst; cbn in Hw; lia|]. rewrite <- E.
    rewrite <- H. rewrite firstn_app, Nat.sub_diag, firstn_all, firstn_O, app_nil_r. f_equal.
    rewrite skipn_app, Nat.sub_diag, skipn_all. cbn [app skipn]. rewrite H. apply IH. lia.
Qed.
Lemma concat_length w (ls : list (list Q)) : Forall (fun l => List.length l = w) ls -> List.length (List.concat ls) = (List.length ls * w)%nat.
Proof. induction 1 as [|l ls H _ IH]; [reflexivity|]. cbn [List.concat List.length]. rewrite app_length, IH, H. lia. Qed.

(** a table line and its numbers *)
Definition value_words (rows : nat) (at_ : nat -> nat -> Q) (col : nat) : list (nat * text) :=
  map (fun i => (16%nat, core8 (neg_q (at_ i col)) (unit_q (at_ i col)))) (seq 0 rows).
Lemma flat_map_words {A} (f : A -> Q) l :
  flat_map (fun i => txt " " ++ fmt_q (f i))%list l =
  flat_map (fun p => txt " " ++ pad (fst p) (snd p))%list (map (fun i => (16%nat, core8 (neg_q (f i)) (unit_q (f i)))) l).
Proof. induction l as [|a l IH]; [reflexivity|]. cbn [flat_map map]. rewrite IH. reflexivity. Qed.
Lemma words_plain_all {A} (f : A -> Q) l : Forall (fun p => plain (snd p)) (map (fun i => (16%nat, core8 (neg_q (f i)) (unit_q (f i)))) l).
Proof. apply Forall_forall. intros p H. apply in_map_iff in H. destruct H as (i & <- & _). apply core8_plain, unit_nonneg. Qed.
Lemma pad0 w : pad 0 w = w.
Proof. reflexivity. Qed.

Lemma parse_values {A} (f : A -> Q) l : exists qs, Forall2 (fun w q => parse_float w = Some q) (map (fun i => core8 (neg_q (f i)) (unit_q (f i))) l) qs /\
  Forall2 (fun i q => eight_decimals (f i) q) l qs.
Proof.
  induction l as [|a l (qs & A1 & A2)]; [exists []; split; constructor|].
  destruct (parse_fmt (f a)) as (q & E & H). exists (q :: qs). split; constructor; assumption.
Qed.

Lemma row_line rows at_ col nm : 
  one_line (row_text rows at_ col nm) /\ is_comment ["#"%char] (row_text rows at_ col nm) = false /\
  exists a b qs, fromstring (row_text rows at_ col nm) = a :: b :: qs /\ (a == inject_Z (Z.of_nat (fst nm)))%Q /\ (b == inject_Z (snd nm))%Q /\
    Forall2 (fun i q => eight_decimals (at_ i col) q) (seq 0 rows) qs.
Proof.
  destruct nm as [n m]. unfold row_text. cbn [fst snd].
  assert (E : (print_Z (Z.of_nat n) ++ txt " " ++ print_Z m ++ flat_map (fun i => txt " " ++ fmt_q (at_ i col)) (seq 0 rows) =
    print_Z (Z.of_nat n) ++ flat_map (fun p => txt " " ++ pad (fst p) (snd p)) ((0%nat, print_Z m) :: value_words rows at_ col))%list).
  { cbn [flat_map fst snd]. rewrite pad0, <- app_assoc. rewrite (flat_map_words (fun i => at_ i col)). reflexivity. }
  rewrite E.
  assert (PL : Forall (fun p => plain (snd p)) ((0%nat, print_Z m) :: value_words rows at_ col)).
  { constructor; [apply print_Z_plain|]. apply (words_plain_all (fun i => at_ i col)). }
  split; [|split].
  - apply one_line_app; [apply plain_one_line, print_Z_plain|apply one_line_join, PL].
  - exact (not_comment 0 _ _ (print_Z_plain _) (print_Z_not_hash _)).
  - unfold fromstring. rewrite words_join by exact PL. rewrite words_plain by apply print_Z_plain. cbn [app map snd].
    destruct (parse_print_Z (Z.of_nat n)) as (a & Ea & Ha). destruct (parse_print_Z m) as (b & Eb & Hb).
    destruct (parse_values (fun i => at_ i col) (seq 0 rows)) as (qs & A1 & A2).
    exists a, b, qs. split; [|split; [exact Ha|split; [exact Hb|exact A2]]].
    apply floats_all. constructor; [exact Ea|]. constructor; [exact Eb|]. unfold value_words. rewrite map_map. cbn [snd]. exact A1.
Qed.

Lemma time_line ys : let line := (txt "  " ++ flat_map (fun y => txt " " ++ fmt_q y) ys)%list in
  one_line line /\ is_comment ["#"%char] line = false /\ exists qs, fromstring line = qs /\ Forall2 eight_decimals ys qs.
Proof.
  intros line.
  assert (E : line = (spaces 2 ++ flat_map (fun p => txt " " ++ pad (fst p) (snd p)) (map (fun y => (16%nat, core8 (neg_q y) (unit_q y))) ys))%list).
  { unfold line. rewrite (flat_map_words (fun y => y)). reflexivity. }
  rewrite E. clear E line. pose proof (words_plain_all (fun y => y) ys) as PL. split; [|split].
  - apply one_line_app; [apply one_line_spaces|apply one_line_join, PL].
  - destruct ys as [|y ys]; [reflexivity|]. cbn [map flat_map fst snd]. unfold pad. 
    set (c := core8 _ _). set (k := (16 - List.length c)%nat). set (r := flat_map _ _).
    replace (spaces 2 ++ (txt " " ++ spaces k ++ c) ++ r)%list with (spaces (3 + k) ++ c ++ r)%list.
    + apply not_comment; [apply core8_plain, unit_nonneg|apply core8_not_hash, unit_nonneg].
    + cbn [Nat.add spaces repeat app txt list_ascii_of_string]. rewrite <- app_assoc. reflexivity.
  - eexists. split; [reflexivity|]. unfold fromstring. rewrite words_spaces. rewrite <- (app_nil_l (flat_map _ _)). rewrite words_join by exact PL.
    destruct (parse_values (fun y => y) ys) as (qs & A1 & A2). cbn [app words words_acc]. rewrite map_map. cbn [snd].
    change (words []) with (@nil text). cbn [app]. rewrite (floats_all _ _ A1). exact A2.
Qed.

Lemma Qtrunc_eq q z : (q == inject_Z z)%Q -> Qtrunc q = z.
Proof.
  intros H. unfold Qtrunc. unfold Qeq in H. cbn in H. rewrite Z.mul_1_r in H. rewrite H. apply Z.quot_mul. lia.
Qed.
Lemma param_line (vs : list Z) v : 
  let line := (print_Z v ++ flat_map (fun z => txt " " ++ print_Z z) vs)%list in
  one_line line /\ is_comment ["#"%char] line = false /\ map Qtrunc (fromstring line) = v :: vs.
Proof.
  intros line. assert (E : line = (print_Z v ++ flat_map (fun p => txt " " ++ pad (fst p) (snd p)) (map (fun z => (0%nat, print_Z z)) vs))%list).
  { unfold line. f_equal. induction vs as [|z vs IH]; [reflexivity|]. cbn [flat_map map fst snd]. rewrite IH. reflexivity. }
  rewrite E. clear E line. assert (PL : Forall (fun p => plain (snd p)) (map (fun z => (0%nat, print_Z z)) vs)).
  { apply Forall_forall. intros p H. apply in_map_iff in H. destruct H as (i & <- & _). apply print_Z_plain. }
  split; [|split].
  - apply one_line_app; [apply plain_one_line, print_Z_plain|apply one_line_join, PL].
  - exact (not_comment 0 _ _ (print_Z_plain _) (print_Z_not_hash _)).
  - unfold fromstring. rewrite words_join by exact PL. rewrite words_plain by apply print_Z_plain. rewrite map_map. cbn [app snd].
    destruct (parse_print_Z v) as (q & Eq & Hq). cbn [floats]. rewrite Eq. cbn [map]. rewrite (Qtrunc_eq _ _ Hq). f_equal.
    clear. induction vs as [|z vs IH]; [reflexivity|]. destruct (parse_print_Z z) as (q & Eq & Hq). cbn [map floats]. rewrite Eq. cbn [map].
    rewrite (Qtrunc_eq _ _ Hq), IH. reflexivity.
Qed.

Lemma lines_of_lines (ls : list text) r : Forall one_line ls -> lines (flat_map (fun l => l ++ nl) ls ++ r)%list = (ls ++ lines r)%list.
Proof.
  induction 1 as [|l ls H _ IH]; [reflexivity|]. cbn [flat_map app]. rewrite <- !app_assoc. unfold nl at 1. rewrite lines_line by exact H. rewrite IH. reflexivity.
Qed.
