(** SHC files as read: contents, errors, cut files. *)
From Coq Require Import List Arith ZArith QArith Ascii String Bool Lia Lqa.
From Verif Require Import M_Prelude M_Time M_Text M_SHC Spec_Text Spec_SHCRead P_Text P_TextSpec P_SHC P_SHC2 P_SHC3 Props_Text.
Import ListNotations.

Lemma lstrip_white sp l : List.Forall white sp -> lstrip (sp ++ l) = lstrip l.
Proof. induction 1 as [|c sp H _ IH]; [reflexivity|]. cbn [app lstrip]. rewrite (proj2 (is_space_iff c) H). exact IH. Qed.
Lemma lstrip_split l : exists sp, List.Forall white sp /\ l = (sp ++ lstrip l)%list.
Proof.
  induction l as [|c l (sp & H & E)]; [exists []; split; constructor|]. cbn [lstrip]. destruct (is_space c) eqn:S.
  - exists (c :: sp). split; [constructor; [apply is_space_iff, S|exact H]|]. cbn. rewrite <- E. reflexivity.
  - exists []. split; [constructor|reflexivity].
Qed.
Lemma prefix_spec p : forall l, prefix p l = true <-> exists r, l = (p ++ r)%list.
Proof.
  induction p as [|a p IH]; intros l; [split; [intros _; exists l; reflexivity|reflexivity]|].
  destruct l as [|b l]; cbn [prefix].
  - split; [discriminate|]. intros [r E]. discriminate.
  - rewrite andb_true_iff, Ascii.eqb_eq, IH. split.
    + intros [-> [r ->]]. exists r. reflexivity.
    + intros [r E]. cbn in E. injection E as -> ->. split; [reflexivity|exists r; reflexivity].
Qed.
Lemma comment_spec mark l : a_mark mark -> (is_comment mark l = true <-> comment_line mark l).
Proof.
  intros (c & r0 & -> & W). unfold is_comment. rewrite prefix_spec. split.
  - intros [r E]. destruct (lstrip_split l) as (sp & H & S). exists sp, r. split; [exact H|]. rewrite <- E. exact S.
  - intros (sp & rest & H & ->). exists rest. rewrite lstrip_white by exact H. cbn [app lstrip]. rewrite (proj2 (not_space c) W). reflexivity.
Qed.
Lemma comment_false mark l : a_mark mark -> (is_comment mark l = false <-> ~ comment_line mark l).
Proof. intros M. rewrite <- (comment_spec mark l M). destruct (is_comment mark l); split; congruence. Qed.

Lemma fromstring_leads l : leading_numbers l (fromstring l).
Proof.
  pose proof (proj1 (words_spec l (words l)) eq_refl) as W. destruct (C135_fromstring l (words l) W) as (num & rest & E & F & R).
  exists (words l), num, rest. repeat split; assumption.
Qed.

Lemma Qtrunc_integer q : integer_part q (Qtrunc q).
Proof.
  unfold Qtrunc, integer_part. destruct q as [a b]. cbn [Qnum Qden]. unfold Qle, Qlt, inject_Z. cbn [Qnum Qden].
  destruct (Z_lt_le_dec a 0) as [N|P].
  - right. pose proof (Z.quot_rem' a (Zpos b)) as E. pose proof (Z.rem_bound_pos (- a) (Zpos b) ltac:(lia) ltac:(lia)) as B. rewrite Z.rem_opp_l in B by lia. nia.
  - left. pose proof (Z.quot_rem' a (Zpos b)) as E. pose proof (Z.rem_bound_pos a (Zpos b) ltac:(lia) ltac:(lia)) as B. nia.
Qed.

Lemma table_fold mark v : a_mark mark -> forall ls d0, exists d,
  fold_left (load_line mark) ls (Some v, d0) = (Some v, (d0 ++ d)%list) /\ table_numbers mark ls d.
Proof.
  intros M. induction ls as [|l ls IH]; intros d0; [exists []; split; [cbn; rewrite app_nil_r; reflexivity|constructor]|].
  cbn [fold_left]. unfold load_line at 2. destruct (is_comment mark l) eqn:C.
  - destruct (IH d0) as (d & E & T). exists d. split; [exact E|]. apply table_comment; [apply (comment_spec mark l M), C|exact T].
  - destruct (IH (d0 ++ fromstring l)%list) as (d & E & T). exists (fromstring l ++ d)%list. rewrite E, app_assoc. split; [reflexivity|].
    apply table_line; [apply (comment_false mark l M), C|apply fromstring_leads|exact T].
Qed.
Lemma file_fold mark : a_mark mark -> forall ls,
  (fold_left (load_line mark) ls (None, []) = (None, []) /\ List.Forall (comment_line mark) ls) \/
  (exists ps d, fold_left (load_line mark) ls (None, []) = (Some ps, d) /\ shc_file mark ls ps d).
Proof.
  intros M. induction ls as [|l ls IH]; [left; split; [reflexivity|constructor]|].
  cbn [fold_left]. unfold load_line at 2 4. destruct (is_comment mark l) eqn:C.
  - apply (comment_spec mark l M) in C. destruct IH as [[E F]|(ps & d & E & S)].
    + left. split; [exact E|constructor; assumption].
    + right. exists ps, d. split; [exact E|]. apply file_comment; assumption.
  - right. destruct (table_fold mark (map Qtrunc (fromstring l)) M ls []) as (d & E & T). exists (map Qtrunc (fromstring l)), d.
    split; [exact E|]. apply (file_params mark l ls (fromstring l)); [apply (comment_false mark l M), C|apply fromstring_leads| |exact T].
    clear. induction (fromstring l) as [|q qs IHq]; cbn [map]; [constructor|constructor; [apply Qtrunc_integer|exact IHq]].
Qed.

Lemma chunk_nth fuel w : (0 < w)%nat -> forall l i, (List.length l <= fuel)%nat -> (List.length l mod w = 0)%nat ->
  List.length (chunk fuel w l) = (List.length l / w)%nat /\
  forall j, (i < List.length l / w)%nat -> (j < w)%nat -> nth j (nth i (chunk fuel w l) []) 0%Q = nth (i * w + j) l 0%Q /\ List.length (nth i (chunk fuel w l) []) = w.
Proof.
  intros Hw. induction fuel as [|fuel IH]; intros l i F D.
  - assert (l = []) by (destruct l; [reflexivity|cbn in F; lia]). subst l. cbn. rewrite Nat.div_0_l by lia. split; [reflexivity|]. intros; lia.
  - destruct l as [|q l0] eqn:EL; [cbn; rewrite Nat.div_0_l by lia; split; [reflexivity|intros; lia]|]. rewrite <- EL in *. cbn [chunk]. rewrite EL. rewrite <- EL.
    assert (L : (w <= List.length l)%nat).
    { pose proof (Nat.div_mod (List.length l) w ltac:(lia)) as E. rewrite D in E. assert (1 <= List.length l)%nat by (rewrite EL; cbn; lia).
      assert (List.length l / w <> 0)%nat by (intros Z; rewrite Z in E; lia). nia. }
    assert (LS : List.length (skipn w l) = (List.length l - w)%nat) by apply skipn_length.
    assert (DQ : (List.length l / w = S ((List.length l - w) / w))%nat).
    { replace (List.length l) with ((List.length l - w) + 1 * w)%nat at 1 by lia. rewrite Nat.div_add by lia. lia. }
    assert (DM : ((List.length l - w) mod w = 0)%nat).
    { rewrite <- D. replace (List.length l) with ((List.length l - w) + 1 * w)%nat at 2 by lia. rewrite Nat.mod_add by lia. reflexivity. }
    destruct (IH (skipn w l) (i - 1)%nat ltac:(lia) ltac:(rewrite LS; exact DM)) as [H1 H2]. rewrite LS in *.
    split; [cbn [List.length]; rewrite H1, DQ; reflexivity|]. intros j Hi Hj. destruct i as [|i].
    + cbn [nth]. rewrite firstn_length, Nat.min_l by lia. split; [|reflexivity].
      rewrite <- (firstn_skipn w l) at 2. rewrite app_nth1 by (rewrite firstn_length; lia). reflexivity.
    + cbn [nth]. replace (S i - 1)%nat with i in H2 by lia. destruct (H2 j ltac:(lia) Hj) as [A B]. split; [|exact B]. rewrite A.
      rewrite <- (firstn_skipn w l) at 2. rewrite app_nth2 by (rewrite firstn_length; nia). rewrite firstn_length, Nat.min_l by lia. f_equal. nia.
Qed.

Lemma leading_unique l qs : leading_numbers l qs -> Forall2 Qeq qs (fromstring l).
Proof.
  intros (ws & num & rest & W & -> & F & R). unfold fromstring. rewrite (proj2 (words_spec _ _) W). clear W.
  induction F as [|w q num qs D F IH]; cbn [app floats].
  - destruct rest as [|w r]; [constructor|]. cbn [floats]. destruct (parse_float w) as [q|] eqn:E; [|constructor].
    exfalso. exact (R q (parse_float_sound _ _ E)).
  - destruct (parse_float_complete _ _ D) as (q' & E & H). rewrite E. constructor; [symmetry; exact H|exact IH].
Qed.
Lemma table_unique mark v : a_mark mark -> forall ls d, table_numbers mark ls d -> forall d0, exists d',
  fold_left (load_line mark) ls (Some v, d0) = (Some v, (d0 ++ d')%list) /\ Forall2 Qeq d d'.
Proof.
  intros M ls d T. induction T as [|l ls d C T IH|l ls qs d C L T IH]; intros d0.
  - exists []. cbn. rewrite app_nil_r. split; [reflexivity|constructor].
  - cbn [fold_left]. unfold load_line at 2. rewrite (proj2 (comment_spec mark l M) C). apply IH.
  - cbn [fold_left]. unfold load_line at 2. rewrite (proj2 (comment_false mark l M) C).
    destruct (IH (d0 ++ fromstring l)%list) as (d' & E & F). exists (fromstring l ++ d')%list. rewrite E, app_assoc. split; [reflexivity|].
    apply Forall2_app; [apply leading_unique, L|exact F].
Qed.
Lemma integer_unique q q' z : (q == q')%Q -> integer_part q z -> Qtrunc q' = z.
Proof.
  intros E I. assert (I' : integer_part q' z).
  { unfold integer_part in *. rewrite <- E. exact I. }
  pose proof (Qtrunc_integer q') as J. unfold integer_part in *. set (t := Qtrunc q') in *.
  assert (X : forall a b : Z, (inject_Z a < inject_Z b)%Q -> (a < b)%Z) by (intros a b; rewrite <- Zlt_Qlt; auto).
  destruct I' as [(A & B & C)|(A & B & C)], J as [(A' & B' & C')|(A' & B' & C')]; try lra.
  - assert (z < t + 1)%Z by (apply X; lra). assert (t < z + 1)%Z by (apply X; lra). lia.
  - assert (z - 1 < t)%Z by (apply X; lra). assert (t - 1 < z)%Z by (apply X; lra). lia.
Qed.
Lemma file_unique mark : a_mark mark -> forall ls ps d, shc_file mark ls ps d -> exists d',
  fold_left (load_line mark) ls (None, []) = (Some ps, d') /\ Forall2 Qeq d d'.
Proof.
  intros M ls ps d T. induction T as [l ls ps d C T IH|l ls qs ps d C L I T].
  - cbn [fold_left]. unfold load_line at 2. rewrite (proj2 (comment_spec mark l M) C). exact IH.
  - cbn [fold_left]. unfold load_line at 2. rewrite (proj2 (comment_false mark l M) C).
    assert (E : map Qtrunc (fromstring l) = ps).
    { apply leading_unique in L. revert ps I. induction L as [|q q' qs qs' H L IH]; intros ps I.
      - inversion I. reflexivity.
      - inversion I as [|a z b zs I1 I2]; subst. cbn [map]. f_equal; [apply (integer_unique q); assumption|apply IH; assumption]. }
    rewrite E. destruct (table_unique mark ps M ls d T []) as (d' & E' & F). exists d'. split; assumption.
Qed.
Lemma comments_fold mark ls st : a_mark mark -> List.Forall (comment_line mark) ls -> fold_left (load_line mark) ls st = st.
Proof. intros M. induction 1 as [|l ls C _ IH]; [reflexivity|]. cbn [fold_left]. unfold load_line at 2. rewrite (proj2 (comment_spec mark l M) C). exact IH. Qed.

Lemma F2_nth d d' i : Forall2 Qeq d d' -> (nth i d 0 == nth i d' 0)%Q.
Proof. intros F. revert i. induction F as [|x y d d' H F IH]; intros [|i]; cbn; try reflexivity; auto. Qed.
Lemma F2_firstn n d d' : Forall2 Qeq d d' -> Forall2 Qeq (firstn n d) (firstn n d').
Proof. intros F. revert n. induction F as [|x y d d' H F IH]; intros [|n]; cbn; constructor; auto. Qed.

Lemma nth_skipn {A} (d : A) l a k : nth k (skipn a l) d = nth (a + k) l d.
Proof. revert l. induction a as [|a IH]; intros l; [reflexivity|]. destruct l; [destruct k; reflexivity|]. cbn. apply IH. Qed.
Definition flag_of (lp : option bool) : option bool := Some (match lp with None => true | Some b => b end).
Definition mark_of (c : option text) : text := match c with None => ["#"%char] | Some c => c end.

Lemma load_fold content lp c : load_shcfile content lp c =
  let '(values, data) := fold_left (load_line (mark_of c)) (lines content) (None, []) in
  match values with
  | None => Err OtherError
  | Some values =>
      match nth_error values 2 with
      | None => Err KeyError
      | Some N =>
          let k := slice_pos N (List.length data) in
          let time := firstn k data in
          let rest := skipn k data in
          let w := Z.to_nat (N + 2) in
          if (N + 2 <=? 0)%Z then Err ValueError
          else if negb (List.length rest mod w =? 0)%nat then Err ValueError
          else bind (mapM (fun t => dyear_to_mjd t (flag_of lp)) time)
                 (fun mjd => Ok (mkshc mjd (map (skipn 2) (chunk (List.length rest) w rest)) values))
      end
  end.
Proof. reflexivity. Qed.

Lemma mapM_years lp l : exists ts, mapM (fun t => dyear_to_mjd t lp) l = Ok ts /\ Forall2 (fun q t => dyear_to_mjd q lp = Ok t) l ts.
Proof.
  destruct (mapM_total (fun t => dyear_to_mjd t lp) l) as [ts E]; [intros x _; apply dyear_total|].
  exists ts. split; [exact E|]. apply mapM_Forall2, E.
Qed.

Theorem shc_all_comments content lp c ls : a_mark (mark_of c) -> lines_of content ls -> List.Forall (comment_line (mark_of c)) ls ->
  load_shcfile content lp c = Err OtherError.
Proof. intros M L F. rewrite load_fold, (proj2 (lines_spec _ _) L), comments_fold by assumption. reflexivity. Qed.

Theorem shc_read content lp c ls ps d : a_mark (mark_of c) -> lines_of content ls -> shc_file (mark_of c) ls ps d ->
  ((List.length ps < 3)%nat -> load_shcfile content lp c = Err KeyError) /\
  (forall N, nth_error ps 2 = Some N -> let n := Z.to_nat N in
     ((N <= -2)%Z -> load_shcfile content lp c = Err ValueError) /\
     (N = (-1)%Z -> exists s, load_shcfile content lp c = Ok s /\ List.length (l_time s) = (List.length d - 1)%nat /\ List.Forall (eq []) (l_rows s)) /\
     ((0 <= N)%Z -> (n <= List.length d)%nat -> (((List.length d - n) mod (n + 2))%nat <> 0)%nat -> load_shcfile content lp c = Err ValueError) /\
     ((0 <= N)%Z -> (n <= List.length d)%nat -> ((List.length d - n) mod (n + 2) = 0)%nat ->
        exists s, load_shcfile content lp c = Ok s /\ l_params s = ps /\
          Forall2 (fun q t => exists q', (q' == q)%Q /\ dyear_to_mjd q' (flag_of lp) = Ok t) (firstn n d) (l_time s) /\
          List.length (l_rows s) = ((List.length d - n) / (n + 2))%nat /\
          forall i, (i < List.length (l_rows s))%nat -> List.length (nth i (l_rows s) []) = n /\
            forall j, (j < n)%nat -> (nth j (nth i (l_rows s) []) 0 == nth (n + i * (n + 2) + 2 + j) d 0)%Q) /\
     ((0 <= N)%Z -> (List.length d < n)%nat -> exists s, load_shcfile content lp c = Ok s /\ List.length (l_time s) = List.length d /\ l_rows s = [])).
Proof.
  intros M L S. destruct (file_unique _ M ls ps d S) as (d' & E & F). rewrite load_fold, (proj2 (lines_spec _ _) L), E.
  pose proof (Forall2_length _ _ _ F) as LE.
  split; [intros H; rewrite (proj2 (nth_error_None ps 2)) by lia; reflexivity|].
  intros N EN n. rewrite EN. cbn zeta. rewrite LE. split; [|split; [|split; [|split]]].
  - intros H. rewrite (proj2 (Z.leb_le (N + 2) 0)) by lia. reflexivity.
  - intros ->. change (-1 + 2 <=? 0)%Z with false. cbn iota. change (Z.to_nat (-1 + 2)) with 1%nat. rewrite Nat.mod_1_r. cbn [Nat.eqb negb].
    destruct (mapM_years (flag_of lp) (firstn (slice_pos (-1) (List.length d')) d')) as (ts & ET & FT). rewrite ET. cbn [bind].
    eexists. split; [reflexivity|]. cbn [l_time l_rows]. split.
    + rewrite <- (Forall2_length _ _ _ FT), firstn_length. unfold slice_pos. cbn [Z.ltb Z.compare]. lia.
    + generalize (List.length (skipn (slice_pos (-1) (List.length d')) d')). intros fuel. generalize (skipn (slice_pos (-1) (List.length d')) d').
      induction fuel as [|fuel IH]; intros l; [constructor|]. cbn [chunk]. destruct l as [|x l]; [constructor|]. cbn [map firstn]. constructor; [reflexivity|apply IH].
  - intros H Hn Hm. rewrite (proj2 (Z.leb_gt (N + 2) 0)) by lia. rewrite slice_pos_small by lia. fold n. rewrite skipn_length.
    replace (Z.to_nat (N + 2)) with (n + 2)%nat by lia. apply Nat.eqb_neq in Hm. rewrite Hm. reflexivity.
  - intros H Hn Hm. rewrite (proj2 (Z.leb_gt (N + 2) 0)) by lia. rewrite slice_pos_small by lia. fold n. rewrite skipn_length.
    replace (Z.to_nat (N + 2)) with (n + 2)%nat by lia. rewrite (proj2 (Nat.eqb_eq _ _) Hm). cbn [negb].
    destruct (mapM_years (flag_of lp) (firstn n d')) as (ts & ET & FT). rewrite ET. cbn [bind]. eexists. split; [reflexivity|]. cbn [l_params l_time l_rows].
    split; [reflexivity|]. split.
    { clear - F FT. apply (F2_firstn n) in F. revert ts FT. induction F as [|x y a b H F IH]; intros ts FT; inversion FT; subst; constructor; [|auto].
      exists y. split; [symmetry; exact H|assumption]. }
    rewrite map_length.
    assert (LS : List.length (skipn n d') = (List.length d' - n)%nat) by apply skipn_length.
    assert (W : (0 < n + 2)%nat) by lia.
    pose proof (fun i => chunk_nth (List.length d' - n) (n + 2) W (skipn n d') i ltac:(lia) ltac:(rewrite LS; exact Hm)) as CH. rewrite LS in CH.
    split; [apply (proj1 (CH 0%nat))|]. rewrite (proj1 (CH 0%nat)). intros i Hi. destruct (CH i) as [_ Q2].
    change (@nil Q) with (skipn 2 (@nil Q)). rewrite (map_nth (skipn 2)). rewrite skipn_length.
    split; [rewrite (proj2 (Q2 0%nat Hi ltac:(lia))); lia|]. intros j Hj.
    rewrite nth_skipn. rewrite (proj1 (Q2 (2 + j)%nat Hi ltac:(lia))). rewrite nth_skipn.
    rewrite (F2_nth d d' _ F). replace (n + (i * (n + 2) + (2 + j)))%nat with (n + i * (n + 2) + 2 + j)%nat by lia. reflexivity.
  - intros H Hn. rewrite (proj2 (Z.leb_gt (N + 2) 0)) by lia.
    assert (SP : slice_pos N (List.length d') = List.length d').
    { unfold slice_pos. destruct (Z.ltb_spec N 0); [lia|]. fold n. lia. }
    rewrite SP, skipn_all, firstn_all. cbn [List.length]. rewrite Nat.mod_0_l by lia. cbn [Nat.eqb negb].
    destruct (mapM_years (flag_of lp) d') as (ts & ET & FT). rewrite ET. cbn [bind]. eexists. split; [reflexivity|]. cbn [l_time l_rows]. split; [|reflexivity].
    symmetry. apply (Forall2_length _ _ _ FT).
Qed.

(** ** Cut files *)
Lemma lines_split a b : lines (a ++ newline :: b) = (lines (a ++ [newline]) ++ lines b)%list.
Proof.
  unfold lines. generalize (@nil ascii) at 1 2. induction a as [|c a IH]; intros w; cbn [app lines_acc].
  - change (Ascii.eqb newline "010") with true. cbn iota. reflexivity.
  - destruct (Ascii.eqb c "010"); [cbn [app]; rewrite IH; reflexivity|apply IH].
Qed.
Lemma chunk_app w : (0 < w)%nat -> forall n a b fuel fuel', (List.length a = n * w)%nat -> (List.length a + List.length b <= fuel)%nat -> (List.length b <= fuel')%nat ->
  exists a', chunk fuel w (a ++ b) = (a' ++ chunk fuel' w b)%list /\ forall fuel'', (List.length a <= fuel'')%nat -> chunk fuel'' w a = a'.
Proof.
  intros W. assert (FU : forall fuel fuel' b, (List.length b <= fuel)%nat -> (List.length b <= fuel')%nat -> chunk fuel w b = chunk fuel' w b).
  { induction fuel as [|fuel IH]; intros fuel' b A B; [destruct b; [destruct fuel'; reflexivity|cbn in A; lia]|].
    destruct fuel' as [|fuel']; [destruct b; [reflexivity|cbn in B; lia]|]. cbn [chunk]. destruct b as [|x b]; [reflexivity|]. f_equal.
    apply IH; rewrite skipn_length; cbn [List.length] in *; lia. }
  induction n as [|n IH]; intros a b fuel fuel' LA FA FB.
  - destruct a; [|cbn in LA; lia]. exists []. cbn [app]. split; [apply FU; cbn in *; lia|]. intros [|f] _; reflexivity.
  - destruct fuel as [|fuel]; [lia|]. assert (NE : a <> []) by (intros ->; cbn in LA; lia).
    assert (SK : List.length (skipn w a) = (n * w)%nat) by (rewrite skipn_length; lia).
    destruct (IH (skipn w a) b fuel fuel' SK ltac:(lia) FB) as (a' & E & H). exists (firstn w a :: a'). split.
    + cbn [chunk]. destruct (a ++ b)%list eqn:EA; [destruct a; [contradiction|discriminate]|]. rewrite <- EA. cbn [app].
      rewrite firstn_app, skipn_app. replace (w - List.length a)%nat with 0%nat by lia. rewrite firstn_O, skipn_O, app_nil_r, E. reflexivity.
    + intros [|f] Hf; [lia|]. cbn [chunk]. destruct a as [|x a0] eqn:EA; [contradiction|]. rewrite <- EA in *. f_equal. apply H. lia.
Qed.

Lemma fold_some mark v ls d0 : exists d, fold_left (load_line mark) ls (Some v, d0) = (Some v, (d0 ++ d)%list).
Proof.
  revert d0. induction ls as [|l ls IH]; intros d0; [exists []; cbn; rewrite app_nil_r; reflexivity|].
  cbn [fold_left]. unfold load_line at 2. destruct (is_comment mark l); [apply IH|].
  destruct (IH (d0 ++ fromstring l)%list) as [d E]. exists (fromstring l ++ d)%list. rewrite E, app_assoc. reflexivity.
Qed.

Theorem cut_at_line_end a b lp c s s' N : load_shcfile (a ++ newline :: b) lp c = Ok s -> load_shcfile (a ++ [newline]) lp c = Ok s' ->
  nth_error (l_params s') 2 = Some N -> (0 <= N)%Z -> l_rows s' <> [] ->
  l_params s = l_params s' /\ l_time s = l_time s' /\ exists more, l_rows s = (l_rows s' ++ more)%list.
Proof.
  intros E E' EN HN HR. rewrite load_fold in E, E'. rewrite lines_split, fold_left_app in E.
  destruct (fold_left (load_line (mark_of c)) (lines (a ++ [newline])) (None, [])) as [[ps|] d] eqn:FO; [|discriminate].
  destruct (fold_some (mark_of c) ps (lines b) d) as [d2 F2]. rewrite F2 in E. clear F2 FO.
  destruct (nth_error ps 2) as [N'|] eqn:EP; [|discriminate]. cbn zeta in E, E'.
  destruct (Z.leb_spec (N' + 2) 0); [discriminate|].
  destruct (negb (List.length (skipn (slice_pos N' (List.length d)) d) mod Z.to_nat (N' + 2) =? 0)%nat) eqn:MD; [discriminate|].
  destruct (mapM (fun t => dyear_to_mjd t (flag_of lp)) (firstn (slice_pos N' (List.length d)) d)) as [ts'|] eqn:T'; [|discriminate]. cbn [bind] in E'.
  injection E' as <-. cbn [l_params l_rows l_time] in *. assert (N' = N) by congruence. subst N'.
  assert (LN : (Z.to_nat N <= List.length d)%nat).
  { destruct (Nat.le_gt_cases (Z.to_nat N) (List.length d)) as [X|X]; [exact X|]. exfalso. apply HR.
    assert (SP : slice_pos N (List.length d) = List.length d) by (unfold slice_pos; destruct (Z.ltb_spec N 0); lia).
    rewrite SP, skipn_all. reflexivity. }
  rewrite slice_pos_small in * by (rewrite ?app_length; lia). set (n := Z.to_nat N) in *.
  rewrite firstn_app, skipn_app in E. replace (n - List.length d)%nat with 0%nat in E by lia. rewrite firstn_O, skipn_O, app_nil_r, T' in E. cbn [bind] in E.
  destruct (negb (List.length (skipn n d ++ d2) mod Z.to_nat (N + 2) =? 0)%nat) eqn:MD2; [discriminate|]. injection E as <-. cbn [l_params l_rows l_time].
  split; [reflexivity|]. split; [reflexivity|].
  apply negb_false_iff, Nat.eqb_eq in MD. set (w := Z.to_nat (N + 2)) in *. assert (W : (0 < w)%nat) by lia.
  assert (LA : List.length (skipn n d) = (List.length (skipn n d) / w * w)%nat) by (pose proof (Nat.div_mod (List.length (skipn n d)) w ltac:(lia)); lia).
  destruct (chunk_app w W _ (skipn n d) d2 (List.length (skipn n d ++ d2)) (List.length d2) LA) as (a' & CA & CB); [rewrite app_length; lia|lia|].
  rewrite CA, (CB (List.length (skipn n d))) by lia. rewrite map_app. eexists. reflexivity.
Qed.

Lemma words_cut l1 : forall w l2, exists p e more, words_acc w l1 = (p ++ e)%list /\ (List.length e <= 1)%nat /\ words_acc w (l1 ++ l2) = (p ++ more)%list.
Proof.
  induction l1 as [|c l1 IH]; intros w l2.
  - exists [], (words_acc w []), (words_acc w l2). split; [reflexivity|]. split; [destruct w; cbn; lia|reflexivity].
  - cbn [app words_acc]. destruct (is_space c).
    + destruct w as [|x w]; [apply IH|]. destruct (IH [] l2) as (p & e & more & A & B & C). exists (rev (x :: w) :: p), e, more.
      rewrite A, C. repeat split; assumption.
    + apply IH.
Qed.
Lemma floats_app p e : floats (p ++ e) = floats p \/ floats (p ++ e) = (floats p ++ floats e)%list.
Proof.
  induction p as [|w p IH]; [right; reflexivity|]. cbn [app floats]. destruct (parse_float w) as [q|]; [|left; reflexivity].
  destruct IH as [-> | ->]; [left|right]; reflexivity.
Qed.
Lemma floats_app_all p : (forall e, floats (p ++ e) = floats p) \/ (forall e, floats (p ++ e) = (floats p ++ floats e)%list).
Proof.
  induction p as [|w p IH]; [right; reflexivity|]. cbn [app floats]. destruct (parse_float w) as [q|]; [|left; reflexivity].
  destruct IH as [H|H]; [left|right]; intros e; rewrite H; reflexivity.
Qed.
Lemma floats_len l : (List.length (floats l) <= List.length l)%nat.
Proof. induction l as [|w l IH]; [reflexivity|]. cbn [floats]. destruct (parse_float w); cbn [List.length]; lia. Qed.
Lemma fromstring_cut l1 l2 : exists P E M, fromstring l1 = (P ++ E)%list /\ (List.length E <= 1)%nat /\ fromstring (l1 ++ l2) = (P ++ M)%list.
Proof.
  unfold fromstring, words. destruct (words_cut l1 [] l2) as (p & e & more & A & B & C). rewrite A, C.
  destruct (floats_app_all p) as [H|H].
  - exists (floats p), [], []. rewrite !H, app_nil_r. repeat split. cbn. lia.
  - exists (floats p), (floats e), (floats more). rewrite !H. repeat split. pose proof (floats_len e). lia.
Qed.
Lemma hash_mark : a_mark (mark_of None).
Proof. exists "#"%char, []. split; [reflexivity|]. intros H. apply is_space_iff in H. discriminate. Qed.
Lemma comment_cut l1 l2 : is_comment ["#"%char] l1 = true -> is_comment ["#"%char] (l1 ++ l2) = true.
Proof.
  intros H. apply (comment_spec _ _ hash_mark) in H. apply (comment_spec _ _ hash_mark). destruct H as (sp & r & W & ->).
  exists sp, (r ++ l2)%list. split; [exact W|]. cbn. rewrite <- !app_assoc. reflexivity.
Qed.
Lemma comment_white l1 l2 : is_comment ["#"%char] l1 = false -> is_comment ["#"%char] (l1 ++ l2) = true -> fromstring l1 = [].
Proof.
  intros A B. assert (W : List.Forall white l1).
  { revert A B. induction l1 as [|c l1 IH]; intros A B; [constructor|]. cbn [app is_comment lstrip] in *. unfold is_comment in *. cbn [app lstrip] in *.
    destruct (is_space c) eqn:S; [constructor; [apply is_space_iff, S|apply IH; assumption]|]. cbn [prefix] in *. destruct (Ascii.eqb "#" c); cbn in *; congruence. }
  unfold fromstring. rewrite <- (app_nil_r l1), words_white by exact W. reflexivity.
Qed.

(** The numbers of a cut file. *)
Lemma cut_numbers cut rest ps d' : fold_left (load_line ["#"%char]) (lines cut) (None, []) = (Some ps, d') -> d' <> [] ->
  exists D E M, d' = (D ++ E)%list /\ (List.length E <= 1)%nat /\ fold_left (load_line ["#"%char]) (lines (cut ++ rest)) (None, []) = (Some ps, (D ++ M)%list).
Proof.
  intros F NE.
  assert (SP : (~ In newline cut) \/ exists a l1, cut = (a ++ newline :: l1)%list /\ ~ In newline l1).
  { clear. induction cut as [|c cut IH]; [left; intros []|]. destruct IH as [H|(a & l1 & -> & H)].
    - destruct (ascii_dec c newline) as [-> |N]; [right; exists [], cut; split; [reflexivity|exact H]|]. left. intros [K|K]; [congruence|exact (H K)].
    - right. exists (c :: a), l1. split; [reflexivity|exact H]. }
  assert (ONE : forall l, ~ In newline l -> l <> [] -> lines l = [l]).
  { intros l A B. apply lines_last_line; [apply not_in_one, A|exact B]. }
  destruct SP as [H|(a & l1 & -> & H)].
  - exfalso. destruct cut as [|c cut]; [discriminate|]. rewrite (ONE (c :: cut) H ltac:(discriminate)) in F. cbn [fold_left] in F. unfold load_line in F.
    destruct (is_comment ["#"%char] (c :: cut)); [discriminate|]. injection F as <- <-. apply NE. reflexivity.
  - rewrite lines_split, fold_left_app in F. rewrite <- app_assoc. cbn [app]. rewrite lines_split, fold_left_app.
    destruct (fold_left (load_line ["#"%char]) (lines (a ++ [newline])) (None, [])) as [v D] eqn:FA.
    assert (VS : v = Some ps).
    { destruct v as [v|].
      - destruct (fold_some ["#"%char] v (lines l1) D) as [x X]. rewrite X in F. congruence.
      - exfalso. assert (D = []).
        { clear - FA. pose proof hash_mark as M. destruct (file_fold _ M (lines (a ++ [newline]))) as [[K _]|(p & q & K & _)]; change (mark_of None) with ["#"%char] in K; congruence. }
        subst D. destruct l1 as [|c l1]; [discriminate|]. rewrite (ONE (c :: l1) H ltac:(discriminate)) in F. cbn [fold_left] in F. unfold load_line in F.
        destruct (is_comment ["#"%char] (c :: l1)); [discriminate|]. injection F as <- <-. apply NE. reflexivity. }
    subst v. destruct l1 as [|c l1].
    { cbn in F. injection F as <-. cbn [app]. destruct (fold_some ["#"%char] ps (lines rest) D) as [x X]. exists D, [], x.
      rewrite app_nil_r. repeat split; [cbn; lia|exact X]. }
    rewrite (ONE (c :: l1) H ltac:(discriminate)) in F. cbn [fold_left] in F.
    set (l := (c :: l1)%list) in *.
    assert (RL : exists l2 more, lines (l ++ rest) = ((l ++ l2) :: more)%list).
    { destruct (first_line rest) as [NR|(x & y & -> & NX)].
      - exists rest, []. apply ONE; [|discriminate]. rewrite in_app_iff. tauto.
      - exists x, (lines y). apply lines_spec. rewrite app_assoc. apply lines_more; [rewrite in_app_iff; tauto|]. apply lines_spec. reflexivity. }
    destruct RL as (l2 & more & RL). rewrite RL. cbn [fold_left]. unfold load_line in F. unfold load_line at 2.
    destruct (is_comment ["#"%char] l) eqn:CL.
    + injection F as <-. rewrite (comment_cut l l2 CL). destruct (fold_some ["#"%char] ps more D) as [x X]. exists D, [], x. rewrite app_nil_r. repeat split; [cbn; lia|exact X].
    + injection F as <-. destruct (is_comment ["#"%char] (l ++ l2)) eqn:CL2.
      * rewrite (comment_white l l2 CL CL2). destruct (fold_some ["#"%char] ps more D) as [x X]. exists D, [], x. repeat split; [cbn; lia|exact X].
      * destruct (fromstring_cut l l2) as (P & E & M & A & B & C). rewrite A, C. destruct (fold_some ["#"%char] ps more (D ++ P ++ M)%list) as [x X].
        exists (D ++ P)%list, E, (M ++ x)%list. rewrite X, <- !app_assoc. repeat split. exact B.
Qed.

Lemma nth_map_skip i (l : list (list Q)) : nth i (map (skipn 2) l) [] = skipn 2 (nth i l []).
Proof. exact (map_nth (skipn 2) l [] i). Qed.

Theorem cut_anywhere cut rest lp s s' N : load_shcfile (cut ++ rest) lp None = Ok s -> load_shcfile cut lp None = Ok s' ->
  nth_error (l_params s') 2 = Some N -> (0 <= N)%Z -> l_rows s' <> [] -> let n := Z.to_nat N in
  l_params s = l_params s' /\ l_time s = l_time s' /\ (List.length (l_rows s') <= List.length (l_rows s))%nat /\
  forall i, (i < List.length (l_rows s'))%nat -> List.length (nth i (l_rows s') []) = n /\ List.length (nth i (l_rows s) []) = n /\
    forall j, (j < n)%nat -> (i + 1 < List.length (l_rows s') \/ j + 1 < n)%nat ->
      nth j (nth i (l_rows s') []) 0%Q = nth j (nth i (l_rows s) []) 0%Q.
Proof.
  intros E E' EN HN HR n. rewrite load_fold in E, E'. change (mark_of None) with ["#"%char] in *.
  destruct (fold_left (load_line ["#"%char]) (lines cut) (None, [])) as [[ps|] d'] eqn:FO; [|discriminate].
  destruct (nth_error ps 2) as [N'|] eqn:EP; [|discriminate]. cbn zeta in E'.
  destruct (Z.leb_spec (N' + 2) 0) as [|HP]; [discriminate|].
  destruct (negb (List.length (skipn (slice_pos N' (List.length d')) d') mod Z.to_nat (N' + 2) =? 0)%nat) eqn:MD; [discriminate|].
  destruct (mapM (fun t => dyear_to_mjd t (flag_of lp)) (firstn (slice_pos N' (List.length d')) d')) as [ts'|] eqn:T'; [|discriminate]. cbn [bind] in E'.
  injection E' as <-. cbn [l_params l_rows l_time] in *. assert (N' = N) by congruence. subst N'.
  assert (LN : (Z.to_nat N < List.length d')%nat).
  { destruct (Nat.lt_ge_cases (Z.to_nat N) (List.length d')) as [X|X]; [exact X|]. exfalso. apply HR.
    assert (SP : slice_pos N (List.length d') = List.length d') by (unfold slice_pos; destruct (Z.ltb_spec N 0); lia).
    rewrite SP, skipn_all. reflexivity. }
  fold n in LN. destruct (cut_numbers cut rest ps d' FO) as (D & X & M & -> & LX & FF); [intros ->; cbn in LN; lia|].
  rewrite FF, EP in E. cbn zeta in E. rewrite (proj2 (Z.leb_gt (N + 2) 0)) in E by lia.
  rewrite slice_pos_small in MD, T', HR |- * by lia. fold n in MD, T', HR |- *.
  replace (Z.to_nat (N + 2)) with (n + 2)%nat in * by lia.
  apply negb_false_iff, Nat.eqb_eq in MD. rewrite skipn_length in MD.
  assert (LD : (n + (n + 2) <= List.length (D ++ X))%nat).
  { pose proof (Nat.div_mod (List.length (D ++ X) - n) (n + 2) ltac:(lia)) as Q. rewrite MD in Q.
    assert ((List.length (D ++ X) - n) / (n + 2) <> 0)%nat by (intros Z; rewrite Z in Q; lia). nia. }
  assert (ND : (n <= List.length D)%nat) by (rewrite app_length in LD; lia).
  rewrite slice_pos_small in E by (rewrite app_length; lia). fold n in E.
  assert (TT : firstn n (D ++ M) = firstn n (D ++ X)).
  { rewrite !firstn_app. replace (n - List.length D)%nat with 0%nat by lia. rewrite !firstn_O. reflexivity. }
  rewrite TT, T' in E.
  destruct (negb (List.length (skipn n (D ++ M)) mod (n + 2) =? 0)%nat) eqn:MD2; [discriminate|]. cbn [bind] in E. injection E as <-. cbn [l_params l_time l_rows].
  split; [reflexivity|]. split; [reflexivity|]. apply negb_false_iff, Nat.eqb_eq in MD2.
  assert (W : (0 < n + 2)%nat) by lia.
  assert (L1 : List.length (skipn n (D ++ X)) = (List.length (D ++ X) - n)%nat) by apply skipn_length.
  assert (L2 : List.length (skipn n (D ++ M)) = (List.length (D ++ M) - n)%nat) by apply skipn_length.
  pose proof (fun i => chunk_nth (List.length (skipn n (D ++ X))) (n + 2) W (skipn n (D ++ X)) i ltac:(lia) ltac:(rewrite L1; exact MD)) as C1.
  pose proof (fun i => chunk_nth (List.length (skipn n (D ++ M))) (n + 2) W (skipn n (D ++ M)) i ltac:(lia) MD2) as C2.
  rewrite !map_length, (proj1 (C1 0%nat)), (proj1 (C2 0%nat)).
  assert (CNT : (List.length (skipn n (D ++ X)) / (n + 2) <= List.length (skipn n (D ++ M)) / (n + 2))%nat).
  { pose proof (Nat.div_mod (List.length (skipn n (D ++ X))) (n + 2) ltac:(lia)) as Q1. rewrite L1, MD, <- L1 in Q1.
    pose proof (Nat.div_mod (List.length (skipn n (D ++ M))) (n + 2) ltac:(lia)) as Q2. rewrite MD2 in Q2.
    set (k1 := (List.length (skipn n (D ++ X)) / (n + 2))%nat) in *. set (k2 := (List.length (skipn n (D ++ M)) / (n + 2))%nat) in *.
    rewrite L1 in Q1. rewrite L2 in Q2. rewrite !app_length in *. nia. }
  split; [exact CNT|]. intros i Hi. destruct (C1 i) as [_ D1]. destruct (C2 i) as [_ D2].
  rewrite !nth_map_skip, !(skipn_length 2).
  rewrite (proj2 (D1 0%nat Hi ltac:(lia))), (proj2 (D2 0%nat ltac:(lia) ltac:(lia))). split; [lia|]. split; [lia|].
  intros j Hj NL. rewrite !nth_skipn. rewrite (proj1 (D1 (2 + j)%nat Hi ltac:(lia))), (proj1 (D2 (2 + j)%nat ltac:(lia) ltac:(lia))).
  rewrite !nth_skipn.
  assert (PD : (n + (i * (n + 2) + (2 + j)) < List.length D)%nat).
  { pose proof (Nat.div_mod (List.length (skipn n (D ++ X))) (n + 2) ltac:(lia)) as Q1. rewrite L1, MD, <- L1 in Q1.
    set (k1 := (List.length (skipn n (D ++ X)) / (n + 2))%nat) in *. rewrite L1 in Q1. rewrite !app_length in *. nia. }
  rewrite !app_nth1 by exact PD. reflexivity.
Qed.
