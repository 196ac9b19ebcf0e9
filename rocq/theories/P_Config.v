(** Proofs about the configuration model. *)
From Coq Require Import List String Ascii ZArith QArith Bool Lia.
From Verif Require Import M_Prelude Spec_Config M_Config.
Import ListNotations.
Open Scope string_scope.

Section P.
Set Default Proof Using "Type".
Variable parse_float : string -> option flt.
Variable parse_int : string -> option Z.
Variable str_of : value -> string.
Variable str_elem : elem -> string.
Variable fd_open : Z -> bool.
Variable writable : string -> bool.
Variable LIB : string.
Local Notation check := (check parse_float parse_int str_of str_elem fd_open).
Local Notation setitem := (setitem parse_float parse_int str_of str_elem fd_open).
Local Notation set_items := (set_items parse_float parse_int str_of str_elem fd_open).
Local Notation load := (load parse_float parse_int str_of str_elem fd_open).
Local Notation reset := (reset parse_float parse_int str_of str_elem fd_open LIB).
Local Notation fullreset := (fullreset LIB).
Local Notation run := (run parse_float parse_int str_of str_elem fd_open writable LIB).
Local Notation init := (init LIB).

(** ** Checkers *)
Lemma search_version_sound s : search_version s = true -> contains_version s.
Proof.
  induction s as [|c r IH]; cbn; [discriminate|].
  destruct r as [|p [|d w]]; try discriminate. intros H.
  apply orb_true_iff in H. destruct H as [H|H].
  - apply andb_true_iff in H. destruct H as [H Hd]. apply andb_true_iff in H. destruct H as [Hc Hp].
    apply Ascii.eqb_eq in Hp. subst p. exists "", c, d, w. repeat split; assumption.
  - apply IH in H. destruct H as (u & c' & d' & w' & H1 & H2 & E).
    exists (String c u), c', d', w'. repeat split; try assumption. cbn. rewrite <- E. reflexivity.
Qed.

Lemma search_version_complete s : contains_version s -> search_version s = true.
Proof.
  intros (u & c & d & w & H1 & H2 & ->). induction u as [|x u IH].
  - cbn. rewrite H1, H2. reflexivity.
  - destruct u as [|y [|z u]]; cbn in *; rewrite ?IH, ?orb_true_r; try reflexivity.
    all: rewrite H1, H2, ?orb_true_r; reflexivity.
Qed.

Lemma promote_length l : List.length (promote str_elem l) = List.length l.
Proof.
  unfold promote. destruct (existsb is_none l); [reflexivity|].
  destruct (existsb is_str l); [apply map_length|]. destruct (existsb is_flt l); [apply map_length|].
  destruct (existsb is_int l); [apply map_length|reflexivity].
Qed.

Lemma existsb_false {A B} (f : A -> bool) (g : B -> A) l : (forall x, f (g x) = false) -> existsb f (map g l) = false.
Proof. intros H. induction l; cbn; rewrite ?H, ?IHl; reflexivity. Qed.

Lemma promote_uniform l : uniform l -> promote str_elem l = l.
Proof.
  intros [(f & ->)|[(z & ->)|[(s & ->)|(b & ->)]]]; unfold promote;
    try (rewrite (existsb_false is_none) by reflexivity); try (rewrite (existsb_false is_str) by reflexivity);
    try (rewrite (existsb_false is_flt) by reflexivity); try (rewrite (existsb_false is_int) by reflexivity).
  - rewrite map_map. destruct (existsb is_flt _); [|reflexivity]. reflexivity.
  - rewrite map_map. destruct (existsb is_int _); reflexivity.
  - rewrite map_map. destruct (existsb is_str _); reflexivity.
  - reflexivity.
Qed.

Lemma check_typed f k v c : check f k v = Ok c -> well_typed k c.
Proof.
  unfold M_Config.check. destruct k.
  - destruct (py_float _ v) as [x|]; [|discriminate]. intros [= <-]. exact I.
  - destruct (py_int _ v) as [x|]; [|discriminate]. intros [= <-]. exact I.
  - unfold check_vector. destruct v; try discriminate.
    + destruct (Nat.eqb_spec (List.length l) n); [|discriminate]. intros [= <-]. assumption.
    + destruct (elems_of l) as [es|]; [|discriminate].
      destruct (Nat.eqb_spec (List.length es) n); [|discriminate]. intros [= <-]. cbn. rewrite promote_length. assumption.
  - unfold check_version_string. destruct (search_version _) eqn:E; [|discriminate]. intros [= <-].
    cbn. apply search_version_sound, E.
  - unfold check_path_exists. destruct v; try discriminate.
    + intros [= <-]. exact I.
    + destruct (fd_open _); [|discriminate]. intros [= <-]. exact I.
    + destruct (fd_open _); [|discriminate]. intros [= <-]. exact I.
    + destruct (String.eqb_spec s "None"); [intros [= <-]; exact I|]. destruct (f s); [|discriminate]. intros [= <-]. assumption.
    + destruct l as [|[] [|]]; try discriminate. destruct (s =? "None"); [|discriminate]. intros [= <-]. exact I.
    + destruct (f s); [|discriminate]. intros [= <-]. exact I.
Qed.

(** A stored path that can be assigned again. *)
Definition path_ok (f : string -> option content) (v : value) : Prop :=
  match v with
  | VNone => True
  | VStr s | VPath s => f s <> None
  | VInt z => fd_open z = true
  | VBool b => fd_open (if b then 1 else 0) = true
  | _ => False
  end.

Lemma recheck f k v : well_typed k v -> (k = KPath -> path_ok f v) -> check f k v = Ok v.
Proof.
  intros W P. unfold M_Config.check. destruct k, v; cbn in W; try contradiction; try reflexivity.
  - cbn. rewrite W, Nat.eqb_refl. reflexivity.
  - unfold check_version_string. cbn [py_str]. rewrite (search_version_complete _ W). reflexivity.
  - specialize (P eq_refl). cbn in *. rewrite P. reflexivity.
  - specialize (P eq_refl). cbn in *. rewrite P. reflexivity.
  - specialize (P eq_refl). cbn in *. destruct (String.eqb_spec s "None"); [contradiction|].
    destruct (f s); [reflexivity|contradiction].
  - specialize (P eq_refl). cbn in *. destruct (f s); [reflexivity|contradiction].
Qed.

Lemma check_path_ok f v c : check f KPath v = Ok c -> path_ok f c.
Proof.
  unfold M_Config.check, check_path_exists. destruct v; try discriminate.
  - intros [= <-]. exact I.
  - destruct (fd_open _) eqn:E; [|discriminate]. intros [= <-]. exact E.
  - destruct (fd_open _) eqn:E; [|discriminate]. intros [= <-]. exact E.
  - destruct (String.eqb_spec s "None"); [intros [= <-]; exact I|].
    destruct (f s) eqn:E; [|discriminate]. intros [= <-]. cbn. congruence.
  - destruct l as [|[] [|]]; try discriminate. destruct (s =? "None"); [|discriminate]. intros [= <-]. exact I.
  - destruct (f s) eqn:E; [|discriminate]. intros [= <-]. cbn. congruence.
Qed.

(** ** Storing *)
Lemma put_same d k r : put d k r k = Some r.
Proof. unfold put. rewrite String.eqb_refl. reflexivity. Qed.
Lemma put_other d k r k' : k <> k' -> put d k r k' = d k'.
Proof. unfold put. destruct (String.eqb_spec k k'); [contradiction|reflexivity]. Qed.

Definition locs_ok (s : st) : Prop := forall k l, cfg s k = Some (RArr l) -> (l < next s)%nat.

Lemma store_read_same s k v : read (store s k v) k = Some v.
Proof. unfold read, store. destruct v; cbn [cfg heap]; rewrite put_same; cbn; rewrite ?Nat.eqb_refl; reflexivity. Qed.

Lemma store_read_other s k v k' : locs_ok s -> k <> k' -> read (store s k v) k' = read s k'.
Proof.
  intros L H. unfold read, store. destruct v; cbn [cfg heap]; rewrite put_other by assumption; try reflexivity.
  all: destruct (cfg s k') as [[w|i]|] eqn:E; try reflexivity.
  cbn. apply L in E. destruct (Nat.eqb_spec i (next s)); [lia|reflexivity].
Qed.

Lemma store_heap s k v i : (i < next s)%nat -> heap (store s k v) i = heap s i.
Proof. intros H. unfold store. destruct v; try reflexivity. cbn. destruct (Nat.eqb_spec i (next s)); [lia|reflexivity]. Qed.
Lemma store_next s k v : (next s <= next (store s k v))%nat.
Proof. unfold store. destruct v; cbn; lia. Qed.
Lemma store_fs s k v : fs (store s k v) = fs s.
Proof. unfold store. destruct v; reflexivity. Qed.
Lemma store_locs s k v : locs_ok s -> (forall l, v <> VVec l -> True) -> locs_ok (store s k v).
Proof.
  intros L _ k' i. unfold store. destruct v; cbn [cfg next]; unfold put; destruct (String.eqb_spec k k'); intros E;
    try (injection E as E); try discriminate; try (apply L in E); try lia.
Qed.

(** ** The invariant of every history *)
Record Inv (s : st) : Prop := mkInv {
  inv_next : (2 <= next s)%nat;
  inv_d0 : List.length (heap s 0) = 3%nat;
  inv_d1 : List.length (heap s 1) = 2%nat;
  inv_locs : locs_ok s;
  inv_keys : forall k, match assoc documented k with
                       | Some kd => exists v, read s k = Some v /\ well_typed kd v
                       | None => cfg s k = None
                       end }.

Lemma store_inv s k kd v : Inv s -> assoc documented k = Some kd -> well_typed kd v -> Inv (store s k v).
Proof.
  intros I0 Hk W. pose proof (inv_next _ I0). split.
  - pose proof (store_next s k v). lia.
  - rewrite store_heap by lia. apply I0.
  - rewrite store_heap by lia. apply I0.
  - apply store_locs; [apply I0|trivial].
  - intros k'. destruct (String.eqb_spec k k') as [<-|N].
    + rewrite Hk. exists v. split; [apply store_read_same|exact W].
    + pose proof (inv_keys _ I0 k') as K. destruct (assoc documented k').
      * rewrite store_read_other; [exact K|apply I0|exact N].
      * unfold store. destruct v; cbn [cfg]; rewrite put_other by exact N; exact K.
Qed.

Lemma setitem_cases s k v s' o : setitem s k v = (s', o) ->
  (exists e, o = Some e /\ s' = s) \/
  (exists kd c, o = None /\ assoc documented k = Some kd /\ check (fs s) kd v = Ok c /\ s' = store s k c).
Proof.
  unfold M_Config.setitem. change checkers with documented.
  destruct (assoc documented k) as [kd|] eqn:A.
  - destruct (check (fs s) kd v) as [c|e] eqn:C; intros [= <- <-].
    + right. exists kd, c. repeat split; assumption.
    + left. exists e. split; reflexivity.
  - intros [= <- <-]. left. eexists. split; reflexivity.
Qed.

Lemma setitem_inv s k v s' o : Inv s -> setitem s k v = (s', o) -> Inv s'.
Proof.
  intros I0 E. apply setitem_cases in E. destruct E as [(e & _ & ->)|(kd & c & _ & A & C & ->)]; [exact I0|].
  eapply store_inv; [exact I0|exact A|]. eapply check_typed, C.
Qed.

Lemma set_items_inv l : forall s s' o, Inv s -> set_items s l = (s', o) -> Inv s'.
Proof.
  induction l as [|[k v] l IH]; intros s s' o I0; cbn.
  - intros [= <- _]. exact I0.
  - destruct (setitem s k v) as [s1 [e|]] eqn:E.
    + intros [= <- _]. eapply setitem_inv; eassumption.
    + apply IH. eapply setitem_inv; eassumption.
Qed.

Lemma put_all_in l : forall d k, NoDup (map fst l) ->
  put_all d l k = match assoc l k with Some r => Some r | None => d k end.
Proof.
  induction l as [|[k0 r0] l IH]; intros d k N; cbn; [reflexivity|].
  inversion N as [|? ? N1 N2]. subst. rewrite IH by assumption.
  destruct (String.eqb_spec k0 k) as [<-|D].
  - assert (A : assoc l k0 = None).
    { clear - N1. induction l as [|[k1 r1] l IH]; [reflexivity|]. cbn in *.
      destruct (String.eqb_spec k1 k0); [exfalso; apply N1; left; assumption|]. apply IH. tauto. }
    rewrite A, put_same. reflexivity.
  - rewrite put_other by assumption. reflexivity.
Qed.

Lemma default_keys_nodup : NoDup (map fst (default_refs LIB)).
Proof. cbn. repeat (apply NoDup_cons; [cbn; intros X; repeat (destruct X as [X|X]; [discriminate|]); exact X|]). apply NoDup_nil. Qed.

Lemma put_defaults d k : put_all d (default_refs LIB) k = match assoc (default_refs LIB) k with Some r => Some r | None => d k end.
Proof. apply put_all_in, default_keys_nodup. Qed.

Ltac keycase k :=
  repeat match goal with
  | |- context [String.eqb ?a k] => destruct (String.eqb_spec a k)
  end.

Lemma lib_not_none t : (4 < String.length t)%nat -> LIB ++ t <> "None".
Proof.
  intros H E. apply (f_equal String.length) in E. cbn in E.
  assert (X : forall a b, (String.length b <= String.length (a ++ b))%nat).
  { induction a as [|c a IH]; intros b; cbn; [lia|]. specialize (IH b). lia. }
  specialize (X LIB t). lia.
Qed.
(** Every default is of the documented type, given the heap keeps lengths. *)
Lemma defaults_typed s : List.length (heap s 0) = 3%nat -> List.length (heap s 1) = 2%nat ->
  forall k, match assoc documented k with
            | Some kd => exists r, assoc (default_refs LIB) k = Some r /\ well_typed kd (deref s r) /\
                           (forall i, r = RArr i -> (i < 2)%nat)
            | None => assoc (default_refs LIB) k = None
            end.
Proof.
  intros H0 H1 k. unfold documented, default_refs, assoc.
  keycase k; try (eexists; split; [reflexivity|split; [cbn; auto; try (apply lib_not_none; cbn; lia)|intros i E; try discriminate; injection E as <-; lia]]);
    try reflexivity.
  exists "", "7"%char, "1"%char, "8". repeat split; reflexivity.
Qed.

Lemma fullreset_inv s s' o : Inv s -> fullreset s = (s', o) -> Inv s'.
Proof.
  intros I0 E. apply (f_equal fst) in E.
  change (mkst (put_all (cfg s) (default_refs LIB)) (heap s) (next s) (fs s) = s') in E. subst s'. pose proof (inv_next _ I0).
  pose proof (defaults_typed s (inv_d0 _ I0) (inv_d1 _ I0)) as D.
  split; cbn [next heap].
  - lia.
  - apply I0.
  - apply I0.
  - intros k l. cbn [cfg next]. rewrite put_defaults. specialize (D k). destruct (assoc documented k).
    + destruct D as (r & -> & _ & B). intros [= ->]. specialize (B l eq_refl). lia.
    + rewrite D. apply (inv_locs _ I0).
  - intros k. specialize (D k). unfold read. cbn [cfg]. rewrite put_defaults.
    pose proof (inv_keys _ I0 k) as K. destruct (assoc documented k).
    + destruct D as (r & -> & W & _). exists (deref s r). split; [|exact W]. cbn.
      destruct r; reflexivity.
    + rewrite D. exact K.
Qed.

Lemma init_inv files : Inv (init files).
Proof.
  pose proof (defaults_typed (init files) eq_refl eq_refl) as D.
  split; cbn [next heap].
  - cbn. lia.
  - reflexivity.
  - reflexivity.
  - intros k l. change (cfg (init files)) with (put_all (fun _ => None) (default_refs LIB)). change (next (init files)) with 2%nat. rewrite put_defaults. specialize (D k). destruct (assoc documented k).
    + destruct D as (r & -> & _ & B). intros [= ->]. specialize (B l eq_refl). lia.
    + rewrite D. discriminate.
  - intros k. specialize (D k). unfold read. change (cfg (init files)) with (put_all (fun _ => None) (default_refs LIB)). rewrite put_defaults.
    destruct (assoc documented k).
    + destruct D as (r & -> & W & _). exists (deref (init files) r). split; [reflexivity|exact W].
    + rewrite D. reflexivity.
Qed.

Lemma set_elem_length l i x : (i < List.length l)%nat -> List.length (set_elem l i x) = List.length l.
Proof.
  intros H. unfold set_elem. rewrite app_length. cbn [List.length]. rewrite firstn_length, skipn_length. lia.
Qed.

Lemma mutate_inv s k i x s' o : Inv s -> mutate s k i x = (s', o) -> Inv s'.
Proof.
  intros I0. unfold mutate. destruct (cfg s k) as [[v|l]|]; try (intros [= <- _]; exact I0).
  destruct (Nat.ltb_spec i (List.length (heap s l))); [|intros [= <- _]; exact I0].
  intros [= <- _].
  assert (HL : forall j, List.length (if Nat.eqb j l then set_elem (heap s l) i x else heap s j) = List.length (heap s j)).
  { intros j. destruct (Nat.eqb_spec j l) as [->|]; [apply set_elem_length; assumption|reflexivity]. }
  split; cbn [next heap].
  - apply I0.
  - rewrite HL. apply I0.
  - rewrite HL. apply I0.
  - exact (inv_locs _ I0).
  - intros k'. pose proof (inv_keys _ I0 k') as K. unfold read in *. cbn [cfg]. destruct (assoc documented k') as [kd|]; [|exact K].
    destruct K as (v & E & W). destruct (cfg s k') as [[w|j]|]; try discriminate.
    + exists v. split; [exact E|exact W].
    + cbn in E. injection E as <-. eexists. split; [reflexivity|].
      destruct kd; cbn in *; try contradiction. rewrite HL. exact W.
Qed.

Lemma reset_inv s k s' o : Inv s -> reset s k = (s', o) -> Inv s'.
Proof.
  intros I0. unfold M_Config.reset. destruct (assoc _ k); [|intros [= <- _]; exact I0].
  apply setitem_inv, I0.
Qed.
Lemma load_inv s p s' o : Inv s -> load s p = (s', o) -> Inv s'.
Proof.
  intros I0. unfold M_Config.load. destruct (fs s p) as [[items| |]|]; try (intros [= <- _]; exact I0).
  apply set_items_inv, I0.
Qed.
Lemma files_inv s f : Inv s -> Inv (mkst (cfg s) (heap s) (next s) f).
Proof. intros I0. destruct I0. split; assumption. Qed.
Lemma save_inv s p s' o : Inv s -> save writable s p = (s', o) -> Inv s'.
Proof. intros I0. unfold save. destruct (writable p); intros [= <- _]; [apply files_inv|]; exact I0. Qed.

Lemma run_inv p : forall s s' o, no_update p -> Inv s -> run p s = (s', o) -> Inv s'.
Proof.
  induction p as [|e|k v|k f IH|k| |path|path|k i x|path c|k v|p IHp q IHq|k v p IHp|p IHp q IHq];
    intros s s' o N I0; cbn.
  - intros [= <- _]; exact I0.
  - intros [= <- _]; exact I0.
  - apply setitem_inv, I0.
  - destruct (cfg s k) as [r|]; [|intros [= <- _]; exact I0]. apply IH; [apply N|exact I0].
  - apply reset_inv, I0.
  - apply fullreset_inv, I0.
  - apply load_inv, I0.
  - apply save_inv, I0.
  - apply mutate_inv, I0.
  - intros [= <- _]. apply files_inv, I0.
  - destruct N.
  - destruct N as [N1 N2]. destruct (run p s) as [s1 [e|]] eqn:E.
    + intros [= <- _]. eapply IHp; eassumption.
    + apply IHq; [exact N2|]. eapply IHp; eassumption.
  - destruct (cfg s k) as [old|]; [|intros [= <- _]; exact I0].
    destruct (setitem s k v) as [s1 [e|]] eqn:E1.
    + intros [= <- _]. eapply setitem_inv; eassumption.
    + destruct (run p s1) as [s2 [e|]] eqn:E2.
      * intros [= <- _]. eapply IHp; [exact N| |exact E2]. eapply setitem_inv; eassumption.
      * apply setitem_inv. eapply IHp; [exact N| |exact E2]. eapply setitem_inv; eassumption.
  - destruct N as [N1 N2]. destruct (run p s) as [s1 [e|]] eqn:E.
    + apply IHq; [exact N2|]. eapply IHp; eassumption.
    + intros [= <- _]. eapply IHp; eassumption.
Qed.

(** ** Arrays are not changed behind the back *)
Definition keeps (s s' : st) : Prop :=
  (next s <= next s')%nat /\ forall i, (i < next s)%nat -> heap s' i = heap s i.
Lemma keeps_refl s : keeps s s. Proof. split; [lia|reflexivity]. Qed.
Lemma keeps_trans s1 s2 s3 : keeps s1 s2 -> keeps s2 s3 -> keeps s1 s3.
Proof. intros [A B] [C D]. split; [lia|]. intros i H. rewrite D, B by lia. reflexivity. Qed.
Lemma setitem_keeps s k v s' o : setitem s k v = (s', o) -> keeps s s'.
Proof.
  intros E. apply setitem_cases in E. destruct E as [(e & _ & ->)|(kd & c & _ & _ & _ & ->)]; [apply keeps_refl|].
  split; [apply store_next|]. intros i H. apply store_heap, H.
Qed.
Lemma set_items_keeps l : forall s s' o, set_items s l = (s', o) -> keeps s s'.
Proof.
  induction l as [|[k v] l IH]; intros s s' o; cbn.
  - intros [= <- _]. apply keeps_refl.
  - destruct (setitem s k v) as [s1 [e|]] eqn:E.
    + intros [= <- _]. eapply setitem_keeps, E.
    + intros H. eapply keeps_trans; [eapply setitem_keeps, E|eapply IH, H].
Qed.
Lemma files_keeps s f : keeps s (mkst (cfg s) (heap s) (next s) f).
Proof. split; cbn; [lia|reflexivity]. Qed.
Lemma run_keeps p : forall s s' o, no_inplace p -> no_update p -> run p s = (s', o) -> keeps s s'.
Proof.
  induction p as [|e|k v|k f IH|k| |path|path|k i x|path c|k v|p IHp q IHq|k v p IHp|p IHp q IHq];
    intros s s' o N U; cbn.
  - intros [= <- _]; apply keeps_refl.
  - intros [= <- _]; apply keeps_refl.
  - apply setitem_keeps.
  - destruct (cfg s k) as [r|]; [|intros [= <- _]; apply keeps_refl]. apply IH; [apply N|apply U].
  - unfold M_Config.reset. destruct (assoc _ k); [|intros [= <- _]; apply keeps_refl]. apply setitem_keeps.
  - intros E. apply (f_equal fst) in E.
    change (mkst (put_all (cfg s) (default_refs LIB)) (heap s) (next s) (fs s) = s') in E. subst s'. split; cbn [next heap]; [lia|reflexivity].
  - unfold M_Config.load. destruct (fs s path) as [[items| |]|]; try (intros [= <- _]; apply keeps_refl).
    apply set_items_keeps.
  - unfold save. destruct (writable path); intros [= <- _]; [apply files_keeps|apply keeps_refl].
  - destruct N.
  - intros [= <- _]. apply files_keeps.
  - destruct U.
  - destruct N as [N1 N2], U as [U1 U2]. destruct (run p s) as [s1 [e|]] eqn:E.
    + intros [= <- _]. eapply IHp; eassumption.
    + intros H. eapply keeps_trans; [eapply IHp; eassumption|eapply IHq; eassumption].
  - destruct (cfg s k) as [old|]; [|intros [= <- _]; apply keeps_refl].
    destruct (setitem s k v) as [s1 [e|]] eqn:E1.
    + intros [= <- _]. eapply setitem_keeps; eassumption.
    + destruct (run p s1) as [s2 [e|]] eqn:E2.
      * intros [= <- _]. eapply keeps_trans; [eapply setitem_keeps, E1|eapply IHp; eassumption].
      * intros H. eapply keeps_trans; [eapply setitem_keeps, E1|].
        eapply keeps_trans; [eapply IHp; eassumption|eapply setitem_keeps, H].
  - destruct N as [N1 N2], U as [U1 U2]. destruct (run p s) as [s1 [e|]] eqn:E.
    + intros H. eapply keeps_trans; [eapply IHp; eassumption|eapply IHq; eassumption].
    + intros [= <- _]. eapply IHp; eassumption.
Qed.

Lemma setitem_other s k v s' o k' : locs_ok s -> setitem s k v = (s', o) -> k' <> k -> read s' k' = read s k'.
Proof.
  intros L E N. apply setitem_cases in E. destruct E as [(e & _ & ->)|(kd & c & _ & _ & _ & ->)]; [reflexivity|].
  apply store_read_other; [exact L|congruence].
Qed.
End P.
