(** Proofs of the configuration properties. *)
From Coq Require Import List String Ascii ZArith QArith Bool Lia.
From Verif Require Import M_Prelude Spec_Config M_Config P_Config.
Import ListNotations.
Open Scope string_scope.

Section P.
Set Default Proof Using "Type".
Variable parse_float : string -> option flt.
Variable parse_int : string -> option Z.
Variable str_of : value -> string.
Variable str_elem : elem -> string.
Variable fd_open : Z -> bool.
Variable writable : string -> bool.
Variable LIB : string.
Local Notation check := (check parse_float parse_int str_of str_elem fd_open).
Local Notation setitem := (setitem parse_float parse_int str_of str_elem fd_open).
Local Notation set_items := (set_items parse_float parse_int str_of str_elem fd_open).
Local Notation run := (run parse_float parse_int str_of str_elem fd_open writable LIB).
Local Notation init := (init LIB).
Local Notation path_ok := (path_ok fd_open).

Lemma C10 files p s o : no_update p -> run p (init files) = (s, o) ->
  (forall k, read s k <> None <-> In k (map fst documented)) /\
  (forall k kd v, In (k, kd) documented -> read s k = Some v -> well_typed kd v).
Proof.
  intros N E. assert (I0 : Inv s) by (eapply run_inv; [exact N|apply init_inv|exact E]).
  assert (A : forall k kd, In (k, kd) documented -> assoc documented k = Some kd).
  { intros k kd H. cbn in H. repeat (destruct H as [H|H]; [injection H as <- <-; reflexivity|]). destruct H. }
  split.
  - intros k. pose proof (inv_keys _ I0 k) as K. split; intros H.
    + destruct (assoc documented k) as [kd|] eqn:Ak; [|unfold read in H; rewrite K in H; contradiction H; reflexivity].
      clear - Ak. revert Ak. generalize documented. intros l. induction l as [|[k0 v0] l IH]; [discriminate|].
      cbn. destruct (String.eqb_spec k0 k); [left; assumption|]. intros H. right. apply IH, H.
    + apply in_map_iff in H. destruct H as ((k1 & kd) & <- & H). apply A in H. cbn [fst] in *. rewrite H in K.
      destruct K as (v & -> & _). discriminate.
  - intros k kd v H Hv. apply A in H. pose proof (inv_keys _ I0 k) as K. rewrite H in K.
    destruct K as (v' & E' & W). congruence.
Qed.

Lemma C73_refuted : ~ (forall files p s o, run p (init files) = (s, o) ->
  forall k kd v, In (k, kd) documented -> read s k = Some v -> well_typed kd v).
Proof.
  intros H.
  specialize (H (fun _ => None) (Update "params.r_surf" (VStr "abc")) _ _ eq_refl "params.r_surf" KFloat (VStr "abc")).
  apply H; [left; reflexivity|]. reflexivity.
Qed.

Lemma C11_set s k v s' e : run (SetItem k v) s = (s', Some e) -> s' = s.
Proof.
  cbn. intros E. apply setitem_cases in E. destruct E as [(e' & _ & ->)|(kd & c & X & _)]; [reflexivity|discriminate].
Qed.
Lemma C11_reset s k s' e : run (Reset k) s = (s', Some e) -> s' = s.
Proof.
  cbn. unfold reset. destruct (assoc _ k); [|intros [= <- _]; reflexivity]. apply C11_set.
Qed.
Lemma C11_unknown s k v : ~ In k (map fst documented) -> run (SetItem k v) s = (s, Some KeyError) /\ run (Reset k) s = (s, Some KeyError).
Proof.
  intros H. assert (A : assoc documented k = None).
  { revert H. generalize documented. intros l. induction l as [|[k0 v0] l IH]; [reflexivity|]. cbn.
    intros H. destruct (String.eqb_spec k0 k); [tauto|]. apply IH. tauto. }
  cbn. unfold M_Config.setitem, reset. change checkers with documented. rewrite A. split; [reflexivity|].
  assert (D : assoc (default_refs LIB) k = None); [|rewrite D; reflexivity].
  revert A. unfold documented, default_refs, assoc.
  repeat match goal with |- context [String.eqb ?a k] => destruct (String.eqb_spec a k); [discriminate|] end. reflexivity.
Qed.

(** Reachable states. *)
Definition reachable (files : string -> option content) (s : st) : Prop :=
  exists p o, no_update p /\ run p (init files) = (s, o).
Lemma reachable_inv files s : reachable files s -> Inv s.
Proof. intros (p & o & N & E). eapply run_inv; [exact N|apply init_inv|exact E]. Qed.

Lemma assoc_in {A} (l : list (string * A)) k v : assoc l k = Some v -> In (k, v) l.
Proof.
  induction l as [|[k0 v0] l IH]; [discriminate|]. cbn. destruct (String.eqb_spec k0 k) as [->|].
  - intros [= ->]. left. reflexivity.
  - intros H. right. apply IH, H.
Qed.
Lemma in_assoc k kd : In (k, kd) documented -> assoc documented k = Some kd.
Proof. intros H. cbn in H. repeat (destruct H as [H|H]; [injection H as <- <-; reflexivity|]). destruct H. Qed.

Lemma C12_frame s k v s' : Inv s -> run (SetItem k v) s = (s', None) ->
  (exists kd c, In (k, kd) documented /\ read s' k = Some c /\ well_typed kd c) /\
  (forall k', k' <> k -> read s' k' = read s k').
Proof.
  intros I0 E. split.
  - cbn in E. apply setitem_cases in E. destruct E as [(e & X & _)|(kd & c & _ & A & C & ->)]; [discriminate|].
    exists kd, c. split; [apply assoc_in, A|]. split; [apply store_read_same|eapply check_typed, C].
  - intros k' N. eapply setitem_other; [apply I0|exact E|exact N].
Qed.

Lemma C12_again s k v s' c : Inv s -> run (SetItem k v) s = (s', None) -> read s' k = Some c ->
  exists s'', run (SetItem k c) s' = (s'', None) /\ forall k', read s'' k' = read s' k'.
Proof.
  intros I0 E R. assert (I1 : Inv s') by (eapply setitem_inv; [exact I0|exact E]).
  cbn in E. apply setitem_cases in E. destruct E as [(e & X & _)|(kd & c' & _ & A & C & ->)]; [discriminate|].
  rewrite store_read_same in R. injection R as ->.
  assert (C2 : check (fs (store s k c)) kd c = Ok c).
  { rewrite store_fs. apply recheck; [eapply check_typed, C|]. intros ->. eapply check_path_ok, C. }
  exists (store (store s k c) k c). split.
  - cbn. unfold M_Config.setitem. change checkers with documented. rewrite A, C2. reflexivity.
  - intros k'. destruct (String.eqb_spec k k') as [<-|N]; [rewrite !store_read_same; reflexivity|].
    apply store_read_other; [apply I1|exact N].
Qed.

(** Values of the documented type are stored as they are. *)
Lemma C12_exact s k kd v : In (k, kd) documented -> well_typed kd v -> (kd = KPath -> path_ok (fs s) v) ->
  exists s', run (SetItem k v) s = (s', None) /\ read s' k = Some v.
Proof.
  intros K W P. exists (store s k v). split; [|apply store_read_same].
  cbn. unfold M_Config.setitem. change checkers with documented. rewrite (in_assoc _ _ K), recheck by assumption. reflexivity.
Qed.

(** Conversions. *)
Lemma C12_int_to_float s k z : In (k, KFloat) documented ->
  exists s', run (SetItem k (VInt z)) s = (s', None) /\ read s' k = Some (VFloat (Fin (inject_Z z))).
Proof.
  intros K. exists (store s k (VFloat (Fin (inject_Z z)))). split; [|apply store_read_same].
  cbn. unfold M_Config.setitem. change checkers with documented. rewrite (in_assoc _ _ K). reflexivity.
Qed.
Lemma C12_list_to_vector s k n fl : In (k, KVector n) documented -> List.length fl = n ->
  exists s', run (SetItem k (VList (map VFloat fl))) s = (s', None) /\ read s' k = Some (VVec (map EFloat fl)).
Proof.
  intros K L. exists (store s k (VVec (map EFloat fl))). split; [|apply store_read_same].
  assert (X : elems_of (map VFloat fl) = Some (map EFloat fl)).
  { clear. induction fl as [|x fl IH]; [reflexivity|]. cbn. rewrite IH. reflexivity. }
  cbn [M_Config.run]. unfold M_Config.setitem. change checkers with documented. rewrite (in_assoc _ _ K).
  cbn [M_Config.check]. unfold check_vector. rewrite X, map_length, L, Nat.eqb_refl, promote_uniform; [reflexivity|].
  left. exists fl. reflexivity.
Qed.
Lemma C12_wrong_length s k n l : In (k, KVector n) documented -> List.length l <> n ->
  run (SetItem k (VList l)) s = (s, Some ValueError) /\
  (forall es, List.length es <> n -> run (SetItem k (VVec es)) s = (s, Some ValueError)).
Proof.
  intros K L. cbn [M_Config.run]. unfold M_Config.setitem. change checkers with documented. rewrite (in_assoc _ _ K).
  cbn [M_Config.check]. split.
  - unfold check_vector. destruct (elems_of l) as [es|] eqn:E; [|reflexivity].
    assert (List.length es = List.length l).
    { clear - E. revert es E. induction l as [|x l IH]; intros es; cbn; [intros [= <-]; reflexivity|].
      destruct (elem_of x); [|discriminate]. destruct (elems_of l); [|discriminate]. intros [= <-]. cbn. rewrite (IH l0); reflexivity. }
    destruct (Nat.eqb_spec (List.length es) n); [congruence|reflexivity].
  - intros es H. unfold check_vector. destruct (Nat.eqb_spec (List.length es) n); [congruence|reflexivity].
Qed.

(** ** Context *)
Lemma check_stable f k v c : well_typed k v -> check f k v = Ok c -> c = v.
Proof.
  intros W C. destruct k.
  - destruct v; try contradiction. cbn in C. injection C as <-. reflexivity.
  - destruct v; try contradiction. cbn in C. injection C as <-. reflexivity.
  - rewrite recheck in C; [injection C as <-; reflexivity|exact W|discriminate].
  - rewrite recheck in C; [injection C as <-; reflexivity|exact W|discriminate].
  - cbn in C. unfold check_path_exists in C. destruct v as [|b|z|f0|t|l|l|t|]; try contradiction; try discriminate.
    + injection C as <-. reflexivity.
    + destruct (fd_open _); [|discriminate]. injection C as <-. reflexivity.
    + destruct (fd_open _); [|discriminate]. injection C as <-. reflexivity.
    + cbn in W. destruct (String.eqb_spec t "None"); [contradiction|].
      destruct (f t); [|discriminate]. injection C as <-. reflexivity.
    + destruct (f t); [|discriminate]. injection C as <-. reflexivity.
Qed.

Lemma setitem_typed s k kd v s' : In (k, kd) documented -> well_typed kd v -> run (SetItem k v) s = (s', None) ->
  read s' k = Some v.
Proof.
  intros K W E. cbn in E. apply setitem_cases in E. destruct E as [(e & X & _)|(kd' & c & _ & A & C & ->)]; [discriminate|].
  rewrite (in_assoc _ _ K) in A. injection A as <-. rewrite store_read_same. f_equal. eapply check_stable; eassumption.
Qed.

Lemma with_inv s k v body s' : run (With k v body) s = (s', None) ->
  exists old s1 s2, cfg s k = Some old /\ run (SetItem k v) s = (s1, None) /\ run body s1 = (s2, None) /\
    run (SetItem k (deref s2 old)) s2 = (s', None).
Proof.
  cbn. destruct (cfg s k) as [old|]; [|discriminate].
  destruct (setitem s k v) as [s1 [e|]] eqn:E1; [discriminate|].
  destruct (run body s1) as [s2 [e|]] eqn:E2; [discriminate|]. intros E3.
  exists old, s1, s2. repeat split; assumption.
Qed.

Lemma old_kept s k v s1 s2 body o old : Inv s -> no_inplace body -> no_update body -> cfg s k = Some old ->
  run (SetItem k v) s = (s1, None) -> run body s1 = (s2, o) -> deref s2 old = deref s old.
Proof.
  intros I0 N U Ec E1 E2.
  assert (K : keeps s s2).
  { eapply keeps_trans; [eapply setitem_keeps, E1|]. eapply run_keeps; [exact N|exact U|exact E2]. }
  destruct old as [w|l]; [reflexivity|]. cbn. destruct K as [_ K]. rewrite K; [reflexivity|]. eapply inv_locs; eassumption.
Qed.

Lemma C13 s k v body s' : Inv s -> no_inplace body -> no_update body ->
  run (With k v body) s = (s', None) ->
  read s' k = read s k /\
  exists s1 s2, run (SetItem k v) s = (s1, None) /\ run body s1 = (s2, None) /\
    forall k', k' <> k -> read s' k' = read s2 k'.
Proof.
  intros I0 N U E. destruct (with_inv _ _ _ _ _ E) as (old & s1 & s2 & Ec & E1 & E2 & E3).
  assert (I1 : Inv s1) by (eapply setitem_inv; [exact I0|exact E1]).
  assert (I2 : Inv s2) by (eapply run_inv; [exact U|exact I1|exact E2]).
  pose proof (old_kept _ _ _ _ _ _ _ _ I0 N U Ec E1 E2) as D.
  assert (R : read s k = Some (deref s old)) by (unfold read; rewrite Ec; reflexivity).
  split.
  - rewrite D in E3. rewrite R.
    pose proof (inv_keys _ I0 k) as Kk. destruct (assoc documented k) as [kd|] eqn:A; [|congruence].
    destruct Kk as (w & Ew & W). rewrite R in Ew. injection Ew as <-.
    eapply setitem_typed; [apply assoc_in, A|exact W|exact E3].
  - exists s1, s2. split; [exact E1|split; [exact E2|]]. intros k' Nk. eapply setitem_other; [apply I2|exact E3|exact Nk].
Qed.

Lemma C13_exit s k kd v body s1 s2 old : Inv s -> no_inplace body -> no_update body ->
  In (k, kd) documented -> read s k = Some old ->
  run (SetItem k v) s = (s1, None) -> run body s1 = (s2, None) -> (kd = KPath -> path_ok (fs s2) old) ->
  exists s', run (With k v body) s = (s', None).
Proof.
  intros I0 N U K R E1 E2 P. unfold read in R. destruct (cfg s k) as [r|] eqn:Ec; [|discriminate]. cbn in R. injection R as R.
  pose proof (old_kept _ _ _ _ _ _ _ _ I0 N U Ec E1 E2) as D.
  assert (W : well_typed kd old).
  { pose proof (inv_keys _ I0 k) as Kk. rewrite (in_assoc _ _ K) in Kk. destruct Kk as (w & Ew & W).
    unfold read in Ew. rewrite Ec in Ew. cbn in Ew. congruence. }
  destruct (C12_exact s2 k kd old K W P) as (s' & E3 & _).
  exists s'. change (run (With k v body) s) with
    (match cfg s k with
      | None => (s, Some KeyError)
      | Some old =>
          match run (SetItem k v) s with
          | (s1, Some e) => (s1, Some e)
          | (s1, None) =>
              match run body s1 with
              | (s2, Some e) => (s2, Some e)
              | (s2, None) => run (SetItem k (deref s2 old)) s2
              end
          end
      end). rewrite Ec, E1, E2, D, R. exact E3.
Qed.

Lemma C14_refuted : ~ (forall files k v body s' e, no_inplace body -> no_update body ->
  run (With k v body) (init files) = (s', Some e) -> read s' k = read (init files) k).
Proof.
  intros H. specialize (H (fun _ => None) "params.r_surf" (VInt 10) (Raise ValueError) _ _ I I eq_refl).
  vm_compute in H. discriminate.
Qed.

(** A failing body leaves the temporary value. *)
Lemma C14_body s k v body s1 s2 e : read s k <> None ->
  run (SetItem k v) s = (s1, None) -> run body s1 = (s2, Some e) -> run (With k v body) s = (s2, Some e).
Proof.
  intros R E1 E2. unfold read in R. destruct (cfg s k) eqn:Ec; [|contradiction R; reflexivity].
  change (run (With k v body) s) with
    (match cfg s k with
      | None => (s, Some KeyError)
      | Some old =>
          match run (SetItem k v) s with
          | (s1, Some e) => (s1, Some e)
          | (s1, None) =>
              match run body s1 with
              | (s2, Some e) => (s2, Some e)
              | (s2, None) => run (SetItem k (deref s2 old)) s2
              end
          end
      end). rewrite Ec, E1, E2. reflexivity.
Qed.

(** ** Load *)
Lemma set_items_prefix l : forall s s' e, set_items s l = (s', Some e) ->
  exists before k v after, l = (before ++ (k, v) :: after)%list /\ set_items s before = (s', None) /\
    run (SetItem k v) s' = (s', Some e).
Proof.
  induction l as [|[k v] l IH]; intros s s' e; cbn; [discriminate|].
  destruct (setitem s k v) as [s1 [e1|]] eqn:E.
  - intros [= <- <-]. exists [], k, v, l. pose proof E as E'. apply (C11_set s k v) in E. subst s1. cbn. auto.
  - intros H. destruct (IH _ _ _ H) as (b & k' & v' & a & -> & B & F). exists ((k, v) :: b), k', v', a. cbn. rewrite E. auto.
Qed.

(** A history that assigns the listed items one by one. *)
Fixpoint assignments (l : list (string * value)) : prog :=
  match l with [] => Skip | (k, v) :: r => Seq (SetItem k v) (assignments r) end.
Lemma set_items_assignments l : forall s, run (assignments l) s = set_items s l.
Proof.
  induction l as [|[k v] l IH]; intros s; cbn; [reflexivity|].
  destruct (setitem s k v) as [s1 [e|]]; [reflexivity|apply IH].
Qed.

Lemma C15_refuted : ~ (forall files path s' e, run (Load path) (init files) = (s', Some e) ->
  forall k, read s' k = read (init files) k).
Proof.
  intros H.
  specialize (H (fun p => if p =? "c.json" then Some (FObj [("params.r_surf", VInt 1); ("params.r_cmb", VNone)]) else None)
    "c.json" _ _ eq_refl "params.r_surf"). vm_compute in H. discriminate.
Qed.

Lemma C15_prefix s path s' e : run (Load path) s = (s', Some e) ->
  s' = s \/ exists before k v after, fs s path = Some (FObj (before ++ (k, v) :: after)%list) /\
    run (assignments before) s = (s', None) /\ run (SetItem k v) s' = (s', Some e).
Proof.
  cbn. unfold M_Config.load. destruct (fs s path) as [[items| |]|]; try (intros [= <- _]; left; reflexivity).
  intros H. right. destruct (set_items_prefix _ _ _ _ H) as (b & k & v & a & -> & B & F).
  exists b, k, v, a. rewrite set_items_assignments. auto.
Qed.

Lemma C15_complete s path items s' : fs s path = Some (FObj items) ->
  run (Load path) s = (s', None) -> run (assignments items) s = (s', None).
Proof. intros F. cbn. unfold M_Config.load. rewrite F, set_items_assignments. auto. Qed.

(** ** Save and load *)
Lemma elems_of_value l : uniform l -> elems_of (map value_of_elem l) = Some l.
Proof.
  assert (G : forall A (c : A -> elem), (forall a, elem_of (value_of_elem (c a)) = Some (c a)) -> forall m, elems_of (map value_of_elem (map c m)) = Some (map c m)).
  { intros A c Hc. induction m as [|a m IH]; [reflexivity|]. cbn. rewrite Hc, IH. reflexivity. }
  intros [(m & ->)|[(m & ->)|[(m & ->)|(m & ->)]]]; apply G; reflexivity.
Qed.

Lemma check_json f kd v : well_typed kd v -> (kd = KPath -> path_ok f v) ->
  (forall l, v = VVec l -> uniform l) -> (forall p, v <> VPath p) -> check f kd (to_json v) = Ok v.
Proof.
  intros W P Un Np. destruct v; try (apply recheck; assumption).
  - destruct kd; try contradiction. cbn in *. rewrite elems_of_value, W, Nat.eqb_refl, promote_uniform; [reflexivity| |]; apply Un; reflexivity.
  - exfalso. exact (Np _ eq_refl).
  - destruct kd; contradiction.
Qed.

Lemma set_items_fs l : forall s s' o, set_items s l = (s', o) -> fs s' = fs s.
Proof.
  induction l as [|[k v] l IH]; intros s s' o; cbn.
  - intros [= <- _]. reflexivity.
  - destruct (setitem s k v) as [s1 o1] eqn:E.
    assert (F : fs s1 = fs s).
    { apply setitem_cases in E. destruct E as [(e & _ & ->)|(kd & c & _ & _ & _ & ->)]; [reflexivity|apply store_fs]. }
    destruct o1; [intros [= <- _]; exact F|]. intros H. rewrite (IH _ _ _ H). exact F.
Qed.

Lemma load_items (s : st) (get : string -> value) : forall ks s2, Inv s2 -> NoDup ks ->
  (forall k, In k ks -> exists kd, In (k, kd) documented /\ check (fs s2) kd (to_json (get k)) = Ok (get k)) ->
  exists s3, set_items s2 (map (fun k => (k, to_json (get k))) ks) = (s3, None) /\
    (forall k, In k ks -> read s3 k = Some (get k)) /\ (forall k, ~ In k ks -> read s3 k = read s2 k).
Proof.
  induction ks as [|k ks IH]; intros s2 I2 ND H.
  - exists s2. cbn. split; [reflexivity|]. split; [intros k []|reflexivity].
  - inversion ND as [|? ? N1 N2]. subst. destruct (H k (or_introl eq_refl)) as (kd & K & C).
    pose proof (in_assoc _ _ K) as A.
    assert (E : setitem s2 k (to_json (get k)) = (store s2 k (get k), None)).
    { unfold M_Config.setitem. change checkers with documented. rewrite A, C. reflexivity. }
    destruct (IH (store s2 k (get k))) as (s3 & E3 & R1 & R2).
    + eapply store_inv; [exact I2|exact A|eapply check_typed, C].
    + exact N2.
    + intros k' Hk'. rewrite store_fs. apply H. right. exact Hk'.
    + exists s3. cbn. rewrite E. split; [exact E3|]. split.
      * intros k' [<-|Hk']; [rewrite R2 by exact N1; apply store_read_same|apply R1, Hk'].
      * intros k' Hk'. rewrite R2 by (intros X; apply Hk'; right; exact X).
        apply store_read_other; [apply I2|]. intros ->. apply Hk'. left. reflexivity.
Qed.

Lemma sorted_keys_nodup : NoDup sorted_keys.
Proof. unfold sorted_keys. repeat (apply NoDup_cons; [cbn; intros X; repeat (destruct X as [X|X]; [discriminate|]); exact X|]). apply NoDup_nil. Qed.
Lemma sorted_keys_in k : In k sorted_keys <-> In k (map fst documented).
Proof. cbn. split; intros H; repeat (destruct H as [H|H]; [subst k; repeat (try (left; reflexivity); right)|]); destruct H. Qed.

(** What a pathlib.Path is after it was saved and loaded. *)
Definition forget_path (v : value) : value := match v with VPath _ => VNone | _ => v end.
Lemma to_json_forget v : to_json (forget_path v) = to_json v.
Proof. destruct v; reflexivity. Qed.

Lemma C16_general s path s1 s2 : Inv s -> Inv s2 ->
  (forall k l, read s k = Some (VVec l) -> uniform l) ->
  (forall k v, In (k, KPath) documented -> read s k = Some v -> path_ok (fs s2) (forget_path v)) ->
  run (Save path) s = (s1, None) -> fs s2 path = fs s1 path ->
  exists s3, run (Load path) s2 = (s3, None) /\ forall k, read s3 k = option_map forget_path (read s k).
Proof.
  intros I0 I2 Un P E F. cbn in E. unfold save in E. destruct (writable path); [|discriminate]. injection E as <-.
  cbn [fs] in F. unfold set_file in F. rewrite String.eqb_refl in F.
  set (get := fun k => match read s k with Some v => forget_path v | None => VNone end).
  assert (Hr : forall k, In k sorted_keys -> exists kd, In (k, kd) documented /\ option_map forget_path (read s k) = Some (get k) /\ well_typed kd (get k) /\ (exists v, read s k = Some v /\ get k = forget_path v)).
  { intros k Hk. apply sorted_keys_in, in_map_iff in Hk. destruct Hk as ((k1 & kd) & <- & Hk). cbn [fst]. exists kd.
    split; [exact Hk|]. pose proof (inv_keys _ I0 k1) as K. rewrite (in_assoc _ _ Hk) in K. destruct K as (v & Ev & W).
    unfold get. rewrite Ev. split; [reflexivity|]. split; [|exists v; auto]. destruct v; try exact W; destruct kd; try contradiction; exact I. }
  assert (D : dump s = map (fun k => (k, to_json (get k))) sorted_keys).
  { unfold dump. assert (G : forall ks, (forall k, In k ks -> In k sorted_keys) ->
      flat_map (fun k => match cfg s k with Some r => [(k, to_json (deref s r))] | None => [] end) ks =
      map (fun k => (k, to_json (get k))) ks).
    { induction ks as [|k ks IH]; intros Hs; [reflexivity|]. cbn [flat_map map]. rewrite IH by (intros k' H'; apply Hs; right; exact H').
      destruct (Hr k (Hs k (or_introl eq_refl))) as (kd & _ & _ & _ & v & R & ->). rewrite to_json_forget. unfold read in R.
      destruct (cfg s k) as [r|]; [|discriminate]. cbn in R. injection R as ->. reflexivity. }
    apply G. auto. }
  destruct (load_items s get sorted_keys s2 I2 sorted_keys_nodup) as (s3 & E3 & R1 & R2).
  { intros k Hk. destruct (Hr k Hk) as (kd & K & _ & W & v & R & Ev). exists kd. split; [exact K|].
    apply check_json; [exact W| | |intros q; rewrite Ev; destruct v; discriminate].
    - intros ->. rewrite Ev. eapply P; eassumption.
    - intros l El. apply (Un k). rewrite R. f_equal. rewrite Ev in El. destruct v; cbn in El; congruence. }
  exists s3. split.
  - cbn. unfold M_Config.load. rewrite F, D. exact E3.
  - intros k. destruct (in_dec string_dec k sorted_keys) as [Hk|Hk].
    + rewrite R1 by exact Hk. destruct (Hr k Hk) as (kd & _ & R & _). symmetry. exact R.
    + rewrite R2 by exact Hk.
      assert (A : assoc documented k = None).
      { destruct (assoc documented k) as [kd|] eqn:A; [|reflexivity]. exfalso. apply Hk, sorted_keys_in.
        apply in_map_iff. exists (k, kd). split; [reflexivity|]. apply assoc_in, A. }
      pose proof (inv_keys _ I0 k) as K0. pose proof (inv_keys _ I2 k) as K2. rewrite A in K0, K2. unfold read. rewrite K0, K2. reflexivity.
Qed.

Lemma C16 s path s1 s2 : Inv s -> Inv s2 ->
  (forall k l, read s k = Some (VVec l) -> uniform l) -> (forall k p, read s k <> Some (VPath p)) ->
  (forall k v, In (k, KPath) documented -> read s k = Some v -> path_ok (fs s2) v) ->
  run (Save path) s = (s1, None) -> fs s2 path = fs s1 path ->
  exists s3, run (Load path) s2 = (s3, None) /\ forall k, read s3 k = read s k.
Proof.
  intros I0 I2 Un Np P E F. assert (K : forall k v, read s k = Some v -> forget_path v = v).
  { intros k v R. destruct v; try reflexivity. exfalso. exact (Np _ _ R). }
  destruct (C16_general s path s1 s2 I0 I2 Un) as (s3 & L & H); [|exact E|exact F|].
  - intros k v D R. rewrite (K _ _ R). eapply P; eassumption.
  - exists s3. split; [exact L|]. intros k. rewrite H. destruct (read s k) eqn:R; [|reflexivity]. cbn. rewrite (K _ _ R). reflexivity.
Qed.

Lemma C16_load s path s1 s2 : Inv s -> Inv s2 ->
  (forall k l, read s k = Some (VVec l) -> uniform l) ->
  (forall k v, In (k, KPath) documented -> read s k = Some v -> (forall p, v <> VPath p) -> path_ok (fs s2) v) ->
  run (Save path) s = (s1, None) -> fs s2 path = fs s1 path ->
  exists s3, run (Load path) s2 = (s3, None) /\
    forall k, (forall p, read s k = Some (VPath p) -> read s3 k = Some VNone) /\
              ((forall p, read s k <> Some (VPath p)) -> read s3 k = read s k).
Proof.
  intros I0 I2 Un P E F. destruct (C16_general s path s1 s2 I0 I2 Un) as (s3 & L & H); [|exact E|exact F|].
  - intros k v D R. destruct v; try (apply (P k _ D R); discriminate). exact I.
  - exists s3. split; [exact L|]. intros k. rewrite H. split.
    + intros p ->. reflexivity.
    + intros N. destruct (read s k) as [v|]; [|reflexivity]. destruct v; try reflexivity. exfalso. eapply N. reflexivity.
Qed.

(** ** Defaults *)
Lemma deref_default s k r : heap s 0 = dipole0 -> heap s 1 = ellipsoid0 -> assoc (default_refs LIB) k = Some r ->
  assoc (factory LIB) k = Some (deref s r).
Proof.
  intros H0 H1. unfold default_refs, factory, assoc.
  repeat match goal with |- context [String.eqb ?a k] => destruct (String.eqb_spec a k); [intros [= <-]; cbn; rewrite ?H0, ?H1; reflexivity|] end.
  discriminate.
Qed.

Lemma defaults_kept files p s o : no_inplace p -> no_update p -> run p (init files) = (s, o) ->
  heap s 0 = dipole0 /\ heap s 1 = ellipsoid0.
Proof.
  intros N U E. destruct (run_keeps _ _ _ _ _ _ _ _ _ _ _ N U E) as [_ K].
  split; rewrite K by (cbn; lia); reflexivity.
Qed.

Lemma reset_reads s k s' : Inv s -> heap s 0 = dipole0 -> heap s 1 = ellipsoid0 ->
  run (Reset k) s = (s', None) -> read s' k = assoc (factory LIB) k.
Proof.
  intros I0 H0 H1. cbn [M_Config.run]. unfold reset. destruct (assoc (default_refs LIB) k) as [r|] eqn:A; [|discriminate].
  rewrite (deref_default _ _ _ H0 H1 A). intros E.
  pose proof (defaults_typed LIB s (inv_d0 _ I0) (inv_d1 _ I0) k) as D.
  destruct (assoc documented k) as [kd|] eqn:Ak; [|congruence]. destruct D as (r' & A' & W & _).
  rewrite A in A'. injection A' as <-. eapply setitem_typed; [apply assoc_in, Ak|exact W|exact E].
Qed.

Lemma C17_reset files p s o k s' : no_inplace p -> no_update p -> run p (init files) = (s, o) ->
  run (Reset k) s = (s', None) -> read s' k = assoc (factory LIB) k.
Proof.
  intros N U E. destruct (defaults_kept _ _ _ _ N U E). apply reset_reads; [|assumption|assumption].
  eapply run_inv; [exact U|apply init_inv|exact E].
Qed.

Lemma factory_documented k : (exists kd, assoc documented k = Some kd) <-> assoc (factory LIB) k <> None.
Proof.
  unfold documented, factory, assoc.
  repeat match goal with |- context [String.eqb ?a k] => destruct (String.eqb_spec a k); [split; [discriminate|intros _; eexists; reflexivity]|] end.
  split; [intros (kd & X); discriminate|intros X; contradiction X; reflexivity].
Qed.

Lemma fullreset_reads s s' : Inv s -> heap s 0 = dipole0 -> heap s 1 = ellipsoid0 ->
  run FullReset s = (s', None) -> forall k, read s' k = assoc (factory LIB) k.
Proof.
  intros I0 H0 H1 E k. apply (f_equal fst) in E.
  change (mkst (put_all (cfg s) (default_refs LIB)) (heap s) (next s) (fs s) = s') in E. subst s'.
  pose proof (defaults_typed LIB s (inv_d0 _ I0) (inv_d1 _ I0) k) as D. pose proof (inv_keys _ I0 k) as K.
  pose proof (factory_documented k) as FD.
  unfold read. cbn [cfg]. rewrite put_defaults. destruct (assoc documented k) as [kd|].
  - destruct D as (r & A & _ & _). rewrite A. rewrite (deref_default s k r H0 H1 A). destruct r; reflexivity.
  - rewrite D, K. destruct (assoc (factory LIB) k); [|reflexivity]. destruct FD as [_ FD].
    destruct FD as (kd & X); [discriminate|discriminate].
Qed.

Lemma C17_fullreset files p s o : no_inplace p -> no_update p -> run p (init files) = (s, o) ->
  exists s', run FullReset s = (s', None) /\ forall k, read s' k = assoc (factory LIB) k.
Proof.
  intros N U E. eexists. split; [reflexivity|]. destruct (defaults_kept _ _ _ _ N U E).
  apply fullreset_reads with (s := s); [|assumption|assumption|reflexivity].
  eapply run_inv; [exact U|apply init_inv|exact E].
Qed.

Lemma C17_initial files : forall k, read (init files) k = assoc (factory LIB) k.
Proof.
  intros k. pose proof (defaults_typed LIB (init files) eq_refl eq_refl k) as D. pose proof (factory_documented k) as FD.
  unfold read. change (cfg (init files)) with (put_all (fun _ => None) (default_refs LIB)). rewrite put_defaults.
  destruct (assoc documented k) as [kd|].
  - destruct D as (r & A & _ & _). rewrite A, (deref_default (init files) k r eq_refl eq_refl A). reflexivity.
  - rewrite D. destruct (assoc (factory LIB) k); [|reflexivity]. destruct FD as [_ FD].
    destruct FD as (kd & X); [discriminate|discriminate].
Qed.

Lemma C17_refuted : ~ (forall files p s o k s', no_update p -> run p (init files) = (s, o) ->
  run (Reset k) s = (s', None) -> read s' k = assoc (factory LIB) k).
Proof.
  intros H.
  specialize (H (fun _ => None) (Mutate "params.dipole" 0 (EFloat (Fin 0))) _ _ "params.dipole" _ I eq_refl eq_refl).
  vm_compute in H. discriminate.
Qed.

Lemma C17_fullreset_refuted : ~ (forall files p s o, no_update p -> run p (init files) = (s, o) ->
  exists s', run FullReset s = (s', None) /\ forall k, read s' k = assoc (factory LIB) k).
Proof.
  intros H.
  destruct (H (fun _ => None) (Mutate "params.ellipsoid" 0 (EFloat (Fin 0))) _ _ I eq_refl) as (s' & E & R).
  apply (f_equal fst) in E. cbn [fst] in E. subst s'. specialize (R "params.ellipsoid"). vm_compute in R. discriminate.
Qed.

(** Modifying an array obtained after a reset does not reach the defaults. *)
Lemma C17_copy files p s o k s1 i x s2 s3 : no_inplace p -> no_update p -> run p (init files) = (s, o) ->
  run (Reset k) s = (s1, None) -> run (Mutate k i x) s1 = (s2, None) -> run (Reset k) s2 = (s3, None) ->
  read s3 k = assoc (factory LIB) k.
Proof.
  intros N U E E1 E2 E3. destruct (defaults_kept _ _ _ _ N U E) as [H0 H1].
  assert (I0 : Inv s) by (eapply run_inv; [exact U|apply init_inv|exact E]).
  assert (I1 : Inv s1) by (eapply reset_inv; [exact I0|exact E1]).
  assert (I2 : Inv s2) by (eapply mutate_inv; [exact I1|exact E2]).
  assert (L : forall l, cfg s1 k = Some (RArr l) -> (2 <= l)%nat /\ forall j, (j < 2)%nat -> heap s1 j = heap s j).
  { intros l. cbn [M_Config.run] in E1. unfold reset in E1. destruct (assoc (default_refs LIB) k) as [r|]; [|discriminate].
    apply setitem_cases in E1. destruct E1 as [(e & X & _)|(kd & c & _ & _ & _ & ->)]; [discriminate|].
    pose proof (inv_next _ I0). intros Hl. split.
    - unfold store in Hl. destruct c; cbn in Hl; rewrite put_same in Hl; try discriminate. injection Hl as <-. lia.
    - intros j Hj. apply store_heap. lia. }
  cbn in E2. unfold mutate in E2. destruct (cfg s1 k) as [[w|l]|] eqn:Ec; try discriminate.
  destruct (L l eq_refl) as [L1 L2]. destruct (Nat.ltb i _); [|discriminate]. injection E2 as <-.
  apply reset_reads in E3; [exact E3|exact I2| |]; cbn [heap].
  - destruct (Nat.eqb_spec 0 l); [lia|]. rewrite L2 by lia. exact H0.
  - destruct (Nat.eqb_spec 1 l); [lia|]. rewrite L2 by lia. exact H1.
Qed.
End P.
