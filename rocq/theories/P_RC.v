(** Proofs about the RC-index files. *)
From Coq Require Import Reals QArith Qreals List Arith ZArith String Ascii Bool Lia.
From Verif Require Import M_Prelude M_ND M_Text M_Chaos M_RC Spec_Loaders Spec_Chaos Spec_RC P_SHC2.
Import ListNotations.
Open Scope nat_scope.

Definition fields_of (ls : list text) : list (list text) :=
  map (fun l => words (before_comment l)) (filter (fun l => negb (skipped_line l)) ls).
Lemma fields_of_app (a b : list text) : fields_of (a ++ b) = (fields_of a ++ fields_of b)%list.
Proof. unfold fields_of. rewrite filter_app, map_app. reflexivity. Qed.

(** the fields of an epoch *)
Definition row_ok (w : list text) (e : epoch) : Prop :=
  exists a b c d, w = [a; b; c; d; ep_flag e] /\
    number a (ep_time e) /\ number b (ep_rc e) /\ number c (ep_e e) /\ number d (ep_i e) /\
    ~ In (ep_flag e) missing_words /\ ep_flag e <> [].

Lemma before_comment_app body rest : ~ In "#"%char body -> (rest = [] \/ exists r, rest = "#"%char :: r) ->
  before_comment (body ++ rest) = body.
Proof.
  intros Hb Hr. induction body as [|c body IH]; cbn.
  - destruct Hr as [-> | [r ->]]; reflexivity.
  - destruct (Ascii.eqb_spec c "#") as [->|Hc]; [exfalso; apply Hb; left; reflexivity|].
    rewrite IH; [reflexivity|]. intros H. apply Hb. right. exact H.
Qed.
Lemma words_acc_nonempty l : forall w, Forall (fun x : text => x <> []) (words_acc w l).
Proof.
  assert (HR : forall (a : ascii) w, rev (a :: w) <> []).
  { intros a w H. apply (f_equal (@List.length ascii)) in H. rewrite rev_length in H. discriminate. }
  induction l as [|c l IH]; intros w; cbn [words_acc].
  - destruct w; [constructor|]. constructor; [apply HR|constructor].
  - destruct (is_space c); [|apply IH]. destruct w; [apply IH|]. constructor; [apply HR|apply IH].
Qed.
Lemma words_nonempty l : Forall (fun x : text => x <> []) (words l).
Proof. apply words_acc_nonempty. Qed.
Lemma words_space_only l : forallb is_space l = true -> words l = [].
Proof.
  unfold words. induction l as [|c l IH]; cbn [words_acc forallb]; [reflexivity|]. intros H. apply andb_prop in H. destruct H as [-> H]. apply IH, H.
Qed.
Lemma forallb_space_app a b : forallb is_space (a ++ b) = true -> forallb is_space a = true.
Proof. rewrite forallb_app. intros H. apply andb_prop in H. apply H. Qed.

(** a line whose part before the comment has words is not skipped *)
Lemma line_kept body rest : ~ In "#"%char body -> (rest = [] \/ exists r, rest = "#"%char :: r) -> words body <> [] ->
  skipped_line (body ++ rest) = false.
Proof.
  intros Hb Hr Hw. unfold skipped_line. apply orb_false_intro.
  - destruct body as [|c body]; [exfalso; apply Hw; reflexivity|].
    cbn -[Ascii.eqb]. destruct (Ascii.eqb_spec "#" c) as [<-|]; [exfalso; apply Hb; left; reflexivity|]. reflexivity.
  - destruct (forallb is_space (body ++ rest)) eqn:F; [|reflexivity].
    exfalso. apply Hw, words_space_only, (forallb_space_app _ _ F).
Qed.
Lemma fields_kept body rest ls : ~ In "#"%char body -> (rest = [] \/ exists r, rest = "#"%char :: r) -> words body <> [] ->
  fields_of ((body ++ rest)%list :: ls) = words body :: fields_of ls.
Proof.
  intros Hb Hr Hw. unfold fields_of. cbn [filter]. rewrite (line_kept _ _ Hb Hr Hw). cbn [negb map].
  rewrite (before_comment_app _ _ Hb Hr). reflexivity.
Qed.
Lemma idle_skipped l : idle_line l -> skipped_line l = true.
Proof.
  unfold skipped_line. intros [H|[r ->]]; [|reflexivity].
  apply orb_true_intro. right. rewrite forallb_forall. intros x Hx. rewrite Forall_forall in H. apply H, Hx.
Qed.
Lemma fields_idle l ls : idle_line l -> fields_of (l :: ls) = fields_of ls.
Proof. intros H. unfold fields_of. cbn [filter]. rewrite (idle_skipped _ H). reflexivity. Qed.

Lemma rc_fields ls es : rc_lines ls es -> Forall2 row_ok (fields_of ls) es.
Proof.
  induction 1 as [|l ls es Hi H IH|l e ls es He H IH].
  - constructor.
  - rewrite (fields_idle _ _ Hi). exact IH.
  - destruct He as (body & rest & a & b & c & d & -> & Hb & Hr & Hw & Ha & Hb' & Hc & Hd & Hf).
    rewrite (fields_kept _ _ _ Hb Hr) by (rewrite Hw; discriminate).
    constructor; [|exact IH]. exists a, b, c, d. repeat (split; [assumption|]).
    pose proof (words_nonempty body) as N. rewrite Hw in N. rewrite Forall_forall in N. apply N. cbn. tauto.
Qed.

Lemma row_ok_length w e : row_ok w e -> List.length w = 5.
Proof. intros (a & b & c & d & -> & _). reflexivity. Qed.
Lemma rows_length ws es : Forall2 row_ok ws es -> forallb (fun r : list text => List.length r <=? 5) ws = true.
Proof.
  intros H. apply forallb_forall. intros w Hw. induction H as [|w' e ws es He H IH]; [destruct Hw|].
  destruct Hw as [->|Hw]; [rewrite (row_ok_length _ _ He); reflexivity|apply IH, Hw].
Qed.
Lemma csv_unfold content : csv_rows 5 content =
  let rows := fields_of (lines content) in
  let width := match rows with [] => 5 | r :: _ => Nat.max 5 (List.length r) end in
  if forallb (fun r => List.length r <=? width) rows then Ok (width - 5, rows) else Err ValueError.
Proof. reflexivity. Qed.
Lemma csv_ok content es : rc_textfile content es -> csv_rows 5 content = Ok (0, fields_of (lines content)).
Proof.
  intros H. apply rc_fields in H. rewrite csv_unfold.
  assert (W : match fields_of (lines content) with [] => 5 | r :: _ => Nat.max 5 (List.length r) end = 5).
  { destruct H as [|w e ws es He H]; [reflexivity|]. rewrite (row_ok_length _ _ He). reflexivity. }
  cbv zeta. rewrite W, (rows_length _ _ H). reflexivity.
Qed.

Lemma text_eqb_true a b : text_eqb a b = true -> a = b.
Proof. unfold text_eqb. destruct (list_eq_dec ascii_dec a b); [auto|discriminate]. Qed.
Lemma na_false w : w <> [] -> ~ In w missing_words -> is_na w = false.
Proof.
  intros H0 H. unfold is_na. destruct (existsb (text_eqb w) na_words) eqn:E; [|reflexivity].
  apply existsb_exists in E. destruct E as [x [Hx E]]. apply text_eqb_true in E. subst x. exfalso.
  change na_words with ([] :: missing_words) in Hx. destruct Hx as [Hx|Hx]; [apply H0; auto|apply H, Hx].
Qed.
Lemma na_number w q : number w q -> is_na w = false.
Proof.
  intros H. unfold is_na. destruct (existsb (text_eqb w) na_words) eqn:E; [|reflexivity].
  apply existsb_exists in E. destruct E as [x [Hx E]]. apply text_eqb_true in E. subst x.
  unfold number in H. repeat (destruct Hx as [<-|Hx]; [vm_compute in H; discriminate|]). destruct Hx.
Qed.
Lemma float_cell_number w q : number w q -> float_cell (Some w) = Ok (Some q).
Proof. intros H. unfold float_cell. rewrite (na_number _ _ H). unfold number in H. rewrite H. reflexivity. Qed.

Lemma col_float ws es k (f : epoch -> Q) : Forall2 row_ok ws es ->
  (forall w e, row_ok w e -> exists a, nth_error w k = Some a /\ number a (f e)) ->
  mapM float_cell (map (fun r => nth_error r (0 + k)) ws) = Ok (map (fun e => Some (f e)) es).
Proof.
  intros H Hk. cbn [Nat.add]. induction H as [|w e ws es He H IH]; [reflexivity|].
  cbn [map mapM]. destruct (Hk _ _ He) as (a & -> & Ha). rewrite (float_cell_number _ _ Ha). cbn [bind]. rewrite IH. reflexivity.
Qed.
Lemma col_flag ws es : Forall2 row_ok ws es ->
  map cat_cell (map (fun r => nth_error r (0 + 4)) ws) = map (fun e => Some (ep_flag e)) es.
Proof.
  intros H. cbn [Nat.add]. induction H as [|w e ws es He H IH]; [reflexivity|].
  cbn [map]. rewrite IH. destruct He as (a & b & c & d & -> & _ & _ & _ & _ & Hn & H0). cbn [nth_error cat_cell].
  rewrite (na_false _ H0 Hn). reflexivity.
Qed.

Definition rc_columns (es : list epoch) : list (string * column) :=
  [("time", CFloat (map (fun e => Some (ep_time e)) es)); ("RC", CFloat (map (fun e => Some (ep_rc e)) es));
   ("RC_e", CFloat (map (fun e => Some (ep_e e)) es)); ("RC_i", CFloat (map (fun e => Some (ep_i e)) es));
   ("flag", CCat (map (fun e => Some (ep_flag e)) es))]%string.
Lemma read_csv_ok content es : rc_textfile content es -> read_csv content = Ok (mkframe Rows (rc_columns es)).
Proof.
  intros H. unfold read_csv. change (List.length column_names) with 5. rewrite (csv_ok _ _ H). cbn [bind].
  apply rc_fields in H. set (ws := fields_of (lines content)) in *. clearbody ws.
  unfold column_names. cbn [combine seq mapM]. unfold read_column.
  cbn [String.eqb Ascii.eqb Bool.eqb].
  rewrite (col_float ws es 0 ep_time H), (col_float ws es 1 ep_rc H), (col_float ws es 2 ep_e H), (col_float ws es 3 ep_i H);
    try (intros w e (a & b & c & d & -> & Ha & Hb & Hc & Hd & _); cbn; eexists; split; [reflexivity|assumption]).
  cbn [bind]. rewrite (col_flag ws es H). reflexivity.
Qed.

Theorem load_ok fs p content es : fs p = Some (FText content) -> rc_textfile content es ->
  load_RC_datfile fs p None = Ok (mkframe Rows (rc_columns es)) /\
  load_RC_datfile fs p (Some false) = Ok (mkframe Rows (rc_columns es)) /\
  load_RC_datfile fs p (Some true) = Ok (mkframe (Dates (map (fun e => Some (ep_time e)) es)) (tl (rc_columns es))).
Proof.
  intros Hp H. unfold load_RC_datfile. rewrite Hp, (read_csv_ok _ _ H). cbn [bind].
  split; [reflexivity|]. split; reflexivity.
Qed.

(** ** rejection *)
Definition not_missing_number (w : text) : Prop := ~ In w missing_words /\ forall q, ~ number w q.
Lemma float_cell_err w e : float_cell w = Err e -> e = ValueError.
Proof.
  destruct w as [w|]; cbn [float_cell]; [|discriminate]. destruct (is_na w); [discriminate|].
  destruct (parse_float w); [discriminate|]. intros H. injection H. auto.
Qed.
Lemma mapM_err {A B} (f : A -> result B) l x : In x l -> (exists e, f x = Err e) -> exists e, mapM f l = Err e.
Proof.
  intros Hx [e He]. induction l as [|y l IH]; [destruct Hx|]. cbn.
  destruct Hx as [->|Hx]; [rewrite He; exists e; reflexivity|].
  destruct (f y) as [z|e']; [|exists e'; reflexivity]. cbn. destruct (IH Hx) as [e' ->]. exists e'. reflexivity.
Qed.
Lemma mapM_err_kind {A B} (f : A -> result B) l e0 : (forall x e, f x = Err e -> e = e0) -> forall e, mapM f l = Err e -> e = e0.
Proof.
  intros H e. induction l as [|y l IH]; cbn; [discriminate|].
  destruct (f y) as [z|e'] eqn:E; cbn; [|intros K; injection K; intros <-; apply (H _ _ E)].
  destruct (mapM f l) as [zs|e'] eqn:E'; cbn; [discriminate|]. intros K. injection K. intros <-. apply IH. reflexivity.
Qed.
Lemma read_column_kind lead rows x e : (let '(k, name) := x in read_column lead rows k name) = Err e -> e = ValueError.
Proof.
  destruct x as [k name]. unfold read_column. destruct (name =? "flag")%string; [discriminate|].
  destruct (mapM float_cell _) as [v|e'] eqn:E; cbn; [discriminate|]. intros K. injection K. intros <-.
  exact (mapM_err_kind _ _ _ float_cell_err _ E).
Qed.

Lemma first_row_five (pre post : list text) es (l : text) ws : rc_lines pre es -> fields_of [l] = [ws] -> List.length ws = 5 \/ es <> [] ->
  forall rows, rows = fields_of (pre ++ l :: post) ->
  match rows with [] => 5 | r :: _ => Nat.max 5 (List.length r) end = 5.
Proof.
  intros H Hl H5 rows ->. rewrite fields_of_app. change (l :: post) with ([l] ++ post). rewrite fields_of_app, Hl.
  apply rc_fields in H. destruct H as [|w e ws' es He H].
  - destruct H5 as [H5|H5]; [|exfalso; apply H5; reflexivity]. cbn [app]. rewrite H5. reflexivity.
  - cbn [app]. rewrite (row_ok_length _ _ He). reflexivity.
Qed.

Theorem bad_number fs p content (pre post : list text) es (l body rest : text) ws k w :
  fs p = Some (FText content) -> lines content = (pre ++ l :: post)%list -> rc_lines pre es ->
  l = (body ++ rest)%list -> ~ In "#"%char body -> (rest = [] \/ exists r, rest = "#"%char :: r) ->
  words body = ws -> List.length ws = 5 -> k < 4 -> nth_error ws k = Some w -> not_missing_number w ->
  forall pd, load_RC_datfile fs p pd = Err ValueError.
Proof.
  intros Hp Hl Hpre Hlb Hb Hr Hws H5 Hk Hw [Hna Hno] pd. unfold load_RC_datfile. rewrite Hp.
  enough (read_csv content = Err ValueError) as -> by reflexivity.
  assert (Hne : words body <> []) by (rewrite Hws; destruct ws; discriminate).
  assert (F1 : fields_of [l] = [ws]).
  { rewrite Hlb. refine (eq_trans (fields_kept body rest [] Hb Hr Hne) _). rewrite Hws. reflexivity. }
  unfold read_csv. change (List.length column_names) with 5. rewrite csv_unfold. cbv zeta. rewrite Hl.
  pose proof (first_row_five pre post es _ ws Hpre F1 (or_introl H5) _ eq_refl) as W.
  set (rows := fields_of (pre ++ l :: post)%list) in *. rewrite W. assert (Hin : In ws rows).
  { unfold rows. rewrite fields_of_app. apply in_or_app. right. change (l :: post) with ([l] ++ post).
    rewrite fields_of_app, F1. left. reflexivity. }
  destruct (forallb _ rows); [|reflexivity]. cbn [bind]. change (5 - 5) with 0.
  destruct (mapM (fun '(k, name) => read_column 0 rows k name) (combine (seq 0 5) column_names)) as [cols|e] eqn:E; cbn [bind].
  2:{ f_equal. refine (mapM_err_kind _ _ ValueError _ _ E). intros [k' n'] e'. apply (read_column_kind 0 rows (k', n') e'). }
  exfalso.
  assert (Hc : exists e, read_column 0 rows k (nth k column_names ""%string) = Err e).
  { unfold read_column. replace (nth k column_names ""%string =? "flag")%string with false
      by (do 4 (destruct k as [|k]; [reflexivity|]); lia).
    destruct (mapM_err float_cell (map (fun r => nth_error r (0 + k)) rows) (Some w)) as [e ->]; [| |exists e; reflexivity].
    - apply in_map_iff. exists ws. split; [exact Hw|exact Hin].
    - exists ValueError. unfold float_cell. rewrite na_false; [|intros ->|exact Hna].
      + destruct (parse_float w) as [q|] eqn:Q; [exfalso; exact (Hno q Q)|reflexivity].
      + pose proof (words_nonempty body) as N. rewrite Hws, Forall_forall in N. apply (N []); [|reflexivity].
        apply nth_error_In in Hw. exact Hw. }
  destruct (mapM_err (fun '(k, name) => read_column 0 rows k name) (combine (seq 0 5) column_names) (k, nth k column_names ""%string)) as [e E'];
    [|exact Hc|congruence].
  do 4 (destruct k as [|k]; [cbn; tauto|]). lia.
Qed.

Theorem too_many_fields fs p content (pre post : list text) es (l body rest : text) :
  fs p = Some (FText content) -> lines content = (pre ++ l :: post)%list -> rc_lines pre es -> es <> [] ->
  l = (body ++ rest)%list -> ~ In "#"%char body -> (rest = [] \/ exists r, rest = "#"%char :: r) -> 5 < List.length (words body) ->
  forall pd, load_RC_datfile fs p pd = Err ValueError.
Proof.
  intros Hp Hl Hpre Hes Hlb Hb Hr H5 pd. unfold load_RC_datfile. rewrite Hp.
  enough (read_csv content = Err ValueError) as -> by reflexivity.
  assert (Hne : words body <> []) by (intros K; rewrite K in H5; cbn in H5; lia).
  assert (F1 : fields_of [l] = [words body]).
  { rewrite Hlb. exact (fields_kept body rest [] Hb Hr Hne). }
  unfold read_csv. change (List.length column_names) with 5. rewrite csv_unfold. cbv zeta. rewrite Hl.
  pose proof (first_row_five pre post es _ (words body) Hpre F1 (or_intror Hes) _ eq_refl) as W.
  rewrite W. 
  destruct (forallb _ _) eqn:E; [|reflexivity]. exfalso. rewrite forallb_forall in E.
  specialize (E (words body)). rewrite Nat.leb_le in E. enough (List.length (words body) <= 5) by lia. apply E.
  rewrite fields_of_app. apply in_or_app. right. change (l :: post) with ([l] ++ post).
  rewrite fields_of_app, F1. left. reflexivity.
Qed.
