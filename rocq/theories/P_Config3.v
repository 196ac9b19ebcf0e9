(** The checkers of the configuration store exactly the converted values. *)
From Coq Require Import List Ascii String ZArith QArith Qround Bool Lia.
From Verif Require Import M_Prelude Spec_Config Spec_ConfigIn M_Config P_Config P_Config2.
Import ListNotations.
Open Scope string_scope.

Lemma F2_length {A B} (R : A -> B -> Prop) l m : Forall2 R l m -> List.length l = List.length m.
Proof. induction 1; cbn; congruence. Qed.

Section P.
Variable parse_float : string -> option flt.
Variable parse_int : string -> option Z.
Variable str_of : value -> string.
Variable str_elem : elem -> string.
Variable fd_open : Z -> bool.
Variable writable : string -> bool.
Variable LIB : string.
Local Notation check := (check parse_float parse_int str_of str_elem fd_open).
Local Notation setitem := (setitem parse_float parse_int str_of str_elem fd_open).
Local Notation float_of := (float_of parse_float).
Local Notation int_of := (int_of parse_int).
Local Notation cast := (cast parse_float str_elem).

Lemma float_elem_spec e f : float_elem parse_float e = Ok f <-> float_of (item e) f.
Proof.
  split.
  - destruct e as [[]| | | | |]; cbn; try discriminate; try (intros [= <-]; constructor; fail).
    destruct (parse_float s) eqn:E; [|discriminate]. intros [= <-]. constructor. exact E.
  - destruct e; cbn; intros H; inversion H; subst; try reflexivity.
    match goal with E : parse_float _ = _ |- _ => rewrite E end. reflexivity.
Qed.
Lemma py_float_spec v f : py_float parse_float v = Ok f <-> float_of v f.
Proof.
  destruct v as [|b|z|g|s|[|e [|e' l]]|l|s|]; cbn [py_float];
    try (split; [discriminate|intros H; inversion H]; fail).
  - rewrite float_elem_spec. reflexivity.
  - rewrite float_elem_spec. reflexivity.
  - split; [intros [= <-]; constructor|intros H; inversion H; reflexivity].
  - rewrite float_elem_spec. reflexivity.
  - rewrite float_elem_spec. split; [apply float_single|intros H; inversion H; assumption].
Qed.

Lemma quot_towards q z : z = Z.quot (Qnum q) (Zpos (Qden q)) <-> towards_zero q z.
Proof.
  destruct q as [n d]. unfold towards_zero, Qle, Qlt, inject_Z. cbn [Qnum Qden].
  pose proof (Pos2Z.is_pos d) as D.
  split.
  - intros ->. split; intros H.
    + rewrite Z.quot_div_nonneg by lia. pose proof (Z.mul_div_le n (Zpos d) D).
      pose proof (Z.mul_succ_div_gt n (Zpos d) D). nia.
    + rewrite <- (Z.opp_involutive n), Z.quot_opp_l by lia. rewrite Z.quot_div_nonneg by lia.
      pose proof (Z.mul_div_le (-n) (Zpos d) D). pose proof (Z.mul_succ_div_gt (-n) (Zpos d) D). nia.
  - intros [H1 H2]. destruct (Z.le_gt_cases 0 n) as [N|N].
    + specialize (H1 ltac:(lia)). rewrite Z.quot_div_nonneg by lia.
      apply Z.div_unique with (n - Zpos d * z)%Z; nia.
    + specialize (H2 ltac:(lia)). rewrite <- (Z.opp_involutive n), Z.quot_opp_l by lia.
      rewrite Z.quot_div_nonneg by lia.
      assert (E : (- z = (- n) / Zpos d)%Z) by (apply Z.div_unique with (- n + Zpos d * z)%Z; nia). lia.
Qed.
Lemma int_flt_spec f z : int_flt f = Ok z <-> int_of (VFloat f) z.
Proof.
  destruct f; cbn; try (split; [discriminate|intros H; inversion H]; fail).
  split.
  - intros [= <-]. constructor. apply quot_towards. reflexivity.
  - intros H. inversion H as [| | |q' z' T| |]; subst. apply quot_towards in T. rewrite T. reflexivity.
Qed.
Lemma int_elem_spec e z : int_elem parse_int e = Ok z <-> int_of (item e) z.
Proof.
  destruct e as [[]|z0|f|s| |]; cbn [int_elem item]; try apply int_flt_spec.
  - split; [intros [= <-]; constructor|intros H; inversion H; reflexivity].
  - split; [intros [= <-]; constructor|intros H; inversion H; reflexivity].
  - split; [intros [= <-]; constructor|intros H; inversion H; reflexivity].
  - split.
    + destruct (parse_int s) eqn:E; [|discriminate]. intros [= <-]. constructor. exact E.
    + intros H. inversion H as [| | | |? ? E|]; subst. rewrite E. reflexivity.
  - split; [discriminate|intros H; inversion H].
  - split; [discriminate|intros H; inversion H].
Qed.
Lemma py_int_spec v z : py_int parse_int v = Ok z <-> int_of v z.
Proof.
  destruct v as [|b|z0|g|s|[|e [|e' l]]|l|s|]; cbn [py_int];
    try (split; [discriminate|intros H; inversion H]; fail).
  - rewrite int_elem_spec. reflexivity.
  - split; [intros [= <-]; constructor|intros H; inversion H; reflexivity].
  - apply int_flt_spec.
  - rewrite int_elem_spec. reflexivity.
  - rewrite int_elem_spec. split; [apply int_single|intros H; inversion H; assumption].
Qed.

(** Vectors *)
Definition erank (e : elem) : nat :=
  match e with EBool _ => 0 | EInt _ => 1 | EFloat _ => 2 | EStr _ => 3 | ENone | EObj => 4 end%nat.
Definition top (l : list elem) : nat :=
  if existsb is_none l then 4 else if existsb is_str l then 3 else if existsb is_flt l then 2
  else if existsb is_int l then 1 else 0%nat.
Definition ecast (t : nat) (e : elem) : elem :=
  match t with 4 => e | 3 => to_str str_elem e | 2 => to_flt e | 1 => to_int e | _ => e end%nat.
Lemma promote_top l : promote str_elem l = map (ecast (top l)) l.
Proof.
  unfold promote, top. destruct (existsb is_none l); [cbn; symmetry; apply map_id|].
  destruct (existsb is_str l); [reflexivity|]. destruct (existsb is_flt l); [reflexivity|].
  destruct (existsb is_int l); [reflexivity|]. cbn. symmetry; apply map_id.
Qed.

Lemma elem_of_rank v e : elem_of v = Some e -> rank v = Some (erank e).
Proof. destruct v; cbn; intros [= <-]; reflexivity. Qed.
Lemma elems_of_spec l : forall es, elems_of l = Some es -> Forall2 (fun v e => elem_of v = Some e) l es.
Proof.
  induction l as [|v l IH]; cbn; intros es; [intros [= <-]; constructor|].
  destruct (elem_of v) eqn:E; [|discriminate]. destruct (elems_of l); [|discriminate]. intros [= <-]. constructor; auto.
Qed.
Lemma elems_of_ranked l : (forall v, In v l -> rank v <> None) -> exists es, elems_of l = Some es.
Proof.
  induction l as [|v l IH]; intros H; [exists []; reflexivity|].
  destruct IH as (es & E); [intros; apply H; right; assumption|]. cbn. rewrite E.
  specialize (H v (or_introl eq_refl)). destruct v; cbn in *; try (eexists; reflexivity); congruence.
Qed.

Lemma top_common l es : Forall2 (fun v e => elem_of v = Some e) l es -> common (top es) l.
Proof.
  intros F.
  assert (X : forall p r, (forall e, p e = true <-> erank e = r) ->
     (existsb p es = true -> exists v, In v l /\ rank v = Some r) /\ (existsb p es = false -> forall e, In e es -> erank e <> r)).
  { intros p r Hp. split.
    - intros H. apply existsb_exists in H. destruct H as (e & Ie & He). apply Hp in He.
      clear Hp. induction F as [|v e' l es Hv F IH]; [destruct Ie|]. destruct Ie as [->|Ie].
      + exists v. split; [left; reflexivity|]. rewrite (elem_of_rank _ _ Hv), He. reflexivity.
      + destruct (IH Ie) as (v' & I1 & I2). exists v'. split; [right; exact I1|exact I2].
    - intros H e Ie He. apply Hp in He. assert (existsb p es = true) by (apply existsb_exists; eauto). congruence. }
  destruct (X is_none 4%nat) as [T4 F4]; [intros []; cbn; split; congruence|].
  destruct (X is_str 3%nat) as [T3 F3]; [intros []; cbn; split; congruence|].
  destruct (X is_flt 2%nat) as [T2 F2]; [intros []; cbn; split; congruence|].
  destruct (X is_int 1%nat) as [T1 F1]; [intros []; cbn; split; congruence|].
  assert (B : forall t, (forall e, In e es -> (erank e <= t)%nat) -> forall v, In v l -> exists r, rank v = Some r /\ (r <= t)%nat).
  { clear - F. intros t H. induction F as [|v e l es Hv F IH]; [intros v []|].
    intros v' [<-|Iv]; [|apply IH; [intros; apply H; right; assumption|exact Iv]].
    exists (erank e). split; [apply elem_of_rank, Hv|apply H; left; reflexivity]. }
  assert (L : forall e, (erank e <= 4)%nat) by (intros []; cbn; lia).
  unfold top, common. destruct (existsb is_none es) eqn:E4; [split; [apply B; intros; apply L|auto]|].
  specialize (F4 eq_refl). destruct (existsb is_str es) eqn:E3.
  { split; [apply B|auto]. intros e Ie. specialize (F4 e Ie). specialize (L e). lia. }
  specialize (F3 eq_refl). destruct (existsb is_flt es) eqn:E2.
  { split; [apply B|auto]. intros e Ie. specialize (F4 e Ie). specialize (F3 e Ie). specialize (L e). lia. }
  specialize (F2 eq_refl). destruct (existsb is_int es) eqn:E1.
  { split; [apply B|auto]. intros e Ie. specialize (F4 e Ie). specialize (F3 e Ie). specialize (F2 e Ie). specialize (L e). lia. }
  specialize (F1 eq_refl). split; [apply B|auto].
  intros e Ie. specialize (F4 e Ie). specialize (F3 e Ie). specialize (F2 e Ie). specialize (F1 e Ie). specialize (L e). lia.
Qed.
Lemma common_unique t t' l : common t l -> common t' l -> t = t'.
Proof.
  intros [A1 A2] [B1 B2].
  assert (G : forall a b, (forall v, In v l -> exists r, rank v = Some r /\ (r <= b)%nat) ->
    (a = 0%nat \/ exists v, In v l /\ rank v = Some a) -> (a <= b)%nat).
  { intros a b Hb [->|(v & Iv & Rv)]; [lia|]. destruct (Hb v Iv) as (r & Rr & Lr). rewrite Rv in Rr. injection Rr as <-. exact Lr. }
  pose proof (G t t' B1 A2). pose proof (G t' t A1 B2). lia.
Qed.
Lemma cast_ecast t v e : elem_of v = Some e -> (erank e <= t)%nat -> (t <= 4)%nat -> cast t v (ecast t e).
Proof.
  intros E L T.
  assert (T' : (t = 0 \/ t = 1 \/ t = 2 \/ t = 3 \/ t = 4)%nat) by lia.
  destruct T' as [-> | [-> | [-> | [-> | ->]]]]; cbn [ecast];
  destruct v as [|b|z|f|s|l|l|s|]; cbn in E; try discriminate; injection E as <-; cbn [erank] in L; try lia;
  cbn [to_int to_flt to_str]; try (constructor; fail).
  - constructor; [destruct b; constructor|discriminate].
  - constructor; [constructor|discriminate].
  - constructor; [constructor|discriminate].
  - apply cast_text; [reflexivity|discriminate].
  - apply cast_text; [reflexivity|discriminate].
  - apply cast_text; [reflexivity|discriminate].
  - apply (cast_obj _ _ ENone).
  - apply (cast_obj _ _ (EBool b)).
  - apply (cast_obj _ _ (EInt z)).
  - apply (cast_obj _ _ (EFloat f)).
  - apply (cast_obj _ _ (EStr s)).
  - apply (cast_obj _ _ EObj).
Qed.
Lemma cast_inv t v e c : elem_of v = Some e -> cast t v c -> c = ecast t e.
Proof.
  intros E C. destruct C as [b|b|z|v f Hf Hr|s|v e' -> Hr|e'|s].
  - injection E as <-. reflexivity.
  - injection E as <-. cbn. destruct b; reflexivity.
  - injection E as <-. reflexivity.
  - inversion Hf; subst; cbn in E, Hr; try congruence; injection E as <-; reflexivity.
  - injection E as <-. reflexivity.
  - destruct e'; cbn in E, Hr; try congruence; injection E as <-; reflexivity.
  - destruct e'; injection E as <-; reflexivity.
  - injection E as <-. reflexivity.
Qed.

Lemma check_vector_spec n v l : check_vector str_elem n v = Ok l <-> vector_of parse_float str_elem n v l.
Proof.
  destruct v as [| | | | |l0|vs| |]; cbn [check_vector];
    try (split; [discriminate|intros H; inversion H]; fail).
  - destruct (Nat.eqb_spec (List.length l0) n).
    + split; [intros [= <-]; constructor; assumption|intros H; inversion H; reflexivity].
    + split; [discriminate|intros H; inversion H; congruence].
  - split.
    + destruct (elems_of vs) as [es|] eqn:E; [|discriminate].
      destruct (Nat.eqb_spec (List.length es) n) as [Ln|]; [|discriminate]. intros [= <-].
      apply elems_of_spec in E. pose proof (top_common _ _ E) as C.
      apply vector_list with (top es); [rewrite <- Ln; exact (F2_length _ _ _ E)|exact C|].
      rewrite promote_top. destruct C as [C _]. set (t := top es) in *.
      assert (T4 : (t <= 4)%nat) by (unfold t, top; repeat destruct (existsb _ es); lia).
      clearbody t. clear Ln. induction E as [|v e vs es Hv E IH]; [constructor|]. cbn. constructor.
      * apply cast_ecast; [exact Hv| |exact T4]. destruct (C v (or_introl eq_refl)) as (r & Rr & Lr).
        rewrite (elem_of_rank _ _ Hv) in Rr. injection Rr as <-. exact Lr.
      * apply IH. intros; apply C; right; assumption.
    + intros H. inversion H as [|? ? t Ln C F]; subst.
      destruct (elems_of_ranked vs) as (es & E).
      { intros v Iv. destruct C as [C _]. destruct (C v Iv) as (r & -> & _). discriminate. }
      rewrite E. apply elems_of_spec in E. pose proof (common_unique _ _ _ C (top_common _ _ E)) as ->.
      rewrite <- (F2_length _ _ _ E), Nat.eqb_refl. f_equal. rewrite promote_top.
      set (t := top es) in *. clearbody t. clear - E F. revert l F.
      induction E as [|v e vs es Hv E IH]; intros l F; inversion F; subst; [reflexivity|]. cbn. f_equal; [|auto].
      symmetry. eapply cast_inv; eassumption.
Qed.

Lemma search_spec s : search_version s = true <-> contains_version s.
Proof. split; [apply search_version_sound|apply search_version_complete]. Qed.
Lemma check_version_spec v c : check_version_string str_of v = Ok c <-> contains_version (text str_of v) /\ c = text str_of v.
Proof.
  unfold check_version_string. change (py_str str_of v) with (text str_of v).
  rewrite <- search_spec. destruct (search_version _); split.
  - intros [= <-]. auto. - intros [_ ->]. reflexivity. - discriminate. - intros [? _]. discriminate.
Qed.

Lemma check_path_spec f v c : check_path_exists fd_open f v = Ok c <-> path_of (fun z => fd_open z = true) (fun s => f s <> None) v c.
Proof.
  destruct v as [|b|z|g|s|[|e [|e' l]]|l|s|]; cbn [check_path_exists];
    try (split; [discriminate|intros H; inversion H]; fail).
  - split; [intros [= <-]; constructor|intros H; inversion H; reflexivity].
  - change (if b then 1%Z else 0%Z) with (Z.b2z b). destruct (fd_open (Z.b2z b)) eqn:E; split.
    + intros [= <-]. constructor. exact E. + intros H; inversion H; reflexivity. + discriminate. + intros H; inversion H; congruence.
  - destruct (fd_open z) eqn:E; split.
    + intros [= <-]. constructor. exact E. + intros H; inversion H; reflexivity. + discriminate. + intros H; inversion H; congruence.
  - destruct (String.eqb_spec s "None") as [->|N].
    + split; [intros [= <-]; constructor|intros H; inversion H; [reflexivity|congruence]].
    + destruct (f s) eqn:E; split.
      * intros [= <-]. constructor; congruence.
      * intros H; inversion H; subst; [contradiction|reflexivity].
      * discriminate.
      * intros H; inversion H; subst; congruence.
  - destruct e as [| | |s| |]; try (split; [discriminate|intros H; inversion H]; fail).
    destruct (String.eqb_spec s "None") as [->|N].
    + split; [intros [= <-]; constructor|intros H; inversion H; reflexivity].
    + split; [discriminate|intros H; inversion H; congruence].
  - destruct e; (split; [discriminate|intros H; inversion H]).
  - destruct (f s) eqn:E; split.
    + intros [= <-]. constructor; congruence. + intros H; inversion H; reflexivity. + discriminate. + intros H; inversion H; congruence.
Qed.

Local Notation converted f := (converted parse_float parse_int str_of str_elem (fun z => fd_open z = true) (fun s => f s <> None)).
Lemma check_spec f kd v c : check f kd v = Ok c <-> converted f kd v c.
Proof.
  assert (M : forall A (r : result A) (g : A -> value) (P : A -> Prop), (forall a, r = Ok a <-> P a) ->
    (rmap g r = Ok c <-> exists a, P a /\ c = g a)).
  { intros A r g P H. destruct r as [a|e]; cbn.
    - split; [intros [= <-]; exists a; split; [apply H|]; reflexivity|].
      intros (a' & Pa & ->). apply H in Pa. injection Pa as ->. reflexivity.
    - split; [discriminate|]. intros (a & Pa & _). apply H in Pa. discriminate. }
  destruct kd; cbn [M_Config.check Spec_ConfigIn.converted].
  - apply M. intros; apply py_float_spec.
  - apply M. intros; apply py_int_spec.
  - apply M. intros; apply check_vector_spec.
  - rewrite (M _ _ _ _ (fun a => check_version_spec v a)). split.
    + intros (a & (A & ->) & ->). auto. + intros (A & ->). eexists. split; [split; [exact A|reflexivity]|reflexivity].
  - apply check_path_spec.
Qed.

Lemma check_reject f kd v e : check f kd v = Err e -> rejection kd v e.
Proof.
  destruct kd; cbn [M_Config.check rejection].
  - destruct v as [|b|z|g|s|[|e0 [|e' l]]|l|s|]; cbn; try (intros [= <-]; reflexivity); try discriminate.
    + destruct (parse_float s); [discriminate|intros [= <-]; reflexivity].
    + destruct e0; cbn; try (intros [= <-]; reflexivity); try discriminate.
      destruct (parse_float s); [discriminate|intros [= <-]; reflexivity].
  - destruct v as [|b|z|[]|s|[|e0 [|e' l]]|l|s|]; cbn; try (intros [= <-]; reflexivity); try discriminate.
    + destruct (parse_int s); [discriminate|intros [= <-]; reflexivity].
    + destruct e0 as [| |[]|s| |]; cbn; try (intros [= <-]; reflexivity); try discriminate.
      destruct (parse_int s); [discriminate|intros [= <-]; reflexivity].
  - destruct v; cbn; try (intros [= <-]; reflexivity).
    + destruct (Nat.eqb _ n); [discriminate|intros [= <-]; reflexivity].
    + destruct (elems_of l); [|intros [= <-]; reflexivity]. destruct (Nat.eqb _ n); [discriminate|intros [= <-]; reflexivity].
  - unfold check_version_string. destruct (search_version _); [discriminate|intros [= <-]; reflexivity].
  - destruct v as [|b|z|g|s|l|l|s|]; cbn [check_path_exists]; try exact (fun _ => I); try (intros [= <-]; reflexivity); try discriminate.
    + destruct (fd_open _); [discriminate|intros [= <-]; reflexivity].
    + destruct (fd_open _); [discriminate|intros [= <-]; reflexivity].
    + destruct (s =? "None"); [discriminate|]. destruct (f s); [discriminate|intros [= <-]; reflexivity].
    + destruct (f s); [discriminate|intros [= <-]; reflexivity].
Qed.

Local Notation run := (run parse_float parse_int str_of str_elem fd_open writable LIB).
Lemma set_converted s k kd v c : In (k, kd) documented ->
  ((exists s', run (SetItem k v) s = (s', None) /\ read s' k = Some c) <-> converted (fs s) kd v c).
Proof.
  intros K. rewrite <- check_spec. cbn [M_Config.run]. unfold M_Config.setitem. change checkers with documented.
  rewrite (in_assoc _ _ K). destruct (check (fs s) kd v) as [c'|e]; split.
  - intros (s' & [= <-] & R). rewrite store_read_same in R. congruence.
  - intros [= <-]. eexists. split; [reflexivity|apply store_read_same].
  - intros (s' & ? & _). discriminate.
  - discriminate.
Qed.
Lemma set_rejected s k kd v : In (k, kd) documented -> (forall c, ~ converted (fs s) kd v c) ->
  exists e, run (SetItem k v) s = (s, Some e) /\ rejection kd v e.
Proof.
  intros K N. cbn [M_Config.run]. unfold M_Config.setitem. change checkers with documented. rewrite (in_assoc _ _ K).
  destruct (check (fs s) kd v) as [c'|e] eqn:E.
  - exfalso. apply (N c'), check_spec, E.
  - exists e. split; [reflexivity|]. eapply check_reject, E.
Qed.
Lemma get_unknown s k f : Inv s -> ~ In k (map fst documented) -> run (Get k f) s = (s, Some KeyError).
Proof.
  intros I0 K. cbn. pose proof (inv_keys _ I0 k) as H. destruct (assoc documented k) as [kd|] eqn:A.
  - exfalso. apply K, in_map_iff. exists (k, kd). split; [reflexivity|]. apply assoc_in, A.
  - rewrite H. reflexivity.
Qed.
Lemma load_unreadable s path :
  (fs s path = None -> run (Load path) s = (s, Some FileNotFoundError)) /\
  (fs s path = Some FOther -> run (Load path) s = (s, Some ValueError)) /\
  (fs s path = Some FJson -> run (Load path) s = (s, Some AttributeError)).
Proof. cbn. unfold M_Config.load. repeat split; intros ->; reflexivity. Qed.
End P.
