(** No two keys of the configuration share an array. *)
From Coq Require Import List Ascii String ZArith QArith Bool Lia.
From Verif Require Import M_Prelude Spec_Config Spec_ConfigIn M_Config P_Config P_Config2 P_Config3.
Import ListNotations.
Open Scope string_scope.

Section P.
Variable parse_float : string -> option flt.
Variable parse_int : string -> option Z.
Variable str_of : value -> string.
Variable str_elem : elem -> string.
Variable fd_open : Z -> bool.
Variable writable : string -> bool.
Variable LIB : string.
Local Notation run := (run parse_float parse_int str_of str_elem fd_open writable LIB).
Local Notation init := (init LIB).
Local Notation setitem := (setitem parse_float parse_int str_of str_elem fd_open).
Local Notation set_items := (set_items parse_float parse_int str_of str_elem fd_open).

Definition unshared (s : st) : Prop :=
  (forall k k' l, cfg s k = Some (RArr l) -> cfg s k' = Some (RArr l) -> k = k') /\ forall k l, cfg s k <> Some (RVal (VVec l)).
Definition Own (s : st) : Prop := Inv s /\ unshared s.

Lemma store_unshared s k v : locs_ok s -> unshared s -> unshared (store s k v).
Proof.
  intros L [U B0]. split; [intros a b l|intros a l]; unfold store; [|destruct v; cbn [cfg]; unfold put; destruct (k =? a); try discriminate; apply B0].
  destruct v; cbn [cfg]; unfold put; destruct (String.eqb_spec k a), (String.eqb_spec k b);
    subst; intros A B; try discriminate; try reflexivity; try (injection A as <-; apply L in B; lia); try (injection B as <-; apply L in A; lia);
    try (eapply U; eassumption).
Qed.
Lemma setitem_own s k v s' o : Own s -> setitem s k v = (s', o) -> Own s'.
Proof.
  intros [I U] E. split; [eapply setitem_inv; eassumption|]. apply setitem_cases in E.
  destruct E as [(e & _ & ->)|(kd & c & _ & _ & _ & ->)]; [exact U|]. apply store_unshared; [apply I|exact U].
Qed.
Lemma set_items_own l : forall s s' o, Own s -> set_items s l = (s', o) -> Own s'.
Proof.
  induction l as [|[k v] l IH]; intros s s' o I0; cbn.
  - intros [= <- _]. exact I0.
  - destruct (setitem s k v) as [s1 [e|]] eqn:E.
    + intros [= <- _]. eapply setitem_own; eassumption.
    + apply IH. eapply setitem_own; eassumption.
Qed.
Lemma default_array k l : assoc (default_refs LIB) k = Some (RArr l) -> (k = "params.dipole" /\ l = 0%nat) \/ (k = "params.ellipsoid" /\ l = 1%nat).
Proof.
  unfold default_refs, assoc. repeat match goal with |- context [String.eqb ?a k] => destruct (String.eqb_spec a k) end; intros E; try discriminate;
    injection E as <-; subst; auto.
Qed.
Lemma default_box k l : assoc (default_refs LIB) k <> Some (RVal (VVec l)).
Proof.
  unfold default_refs, assoc. repeat match goal with |- context [String.eqb ?a k] => destruct (String.eqb_spec a k) end; discriminate.
Qed.
Lemma defaults_unshared s : Inv s -> unshared (mkst (put_all (cfg s) (default_refs LIB)) (heap s) (next s) (fs s)).
Proof.
  intros I.
  assert (D : forall k, assoc (default_refs LIB) k = None -> cfg s k = None).
  { intros k H. pose proof (inv_keys _ I k) as K. pose proof (defaults_typed LIB s (inv_d0 _ I) (inv_d1 _ I) k) as T.
    destruct (assoc documented k); [|exact K]. destruct T as (r & T & _). congruence. }
  split; [intros a b l|intros a l]; cbn [cfg]; rewrite !put_defaults; [|destruct (assoc (default_refs LIB) a) as [ra|] eqn:A; [|rewrite (D _ A); discriminate]; intros [= ->]; apply (default_box a l A)].
  destruct (assoc (default_refs LIB) a) as [ra|] eqn:A; [|rewrite (D _ A); discriminate].
  destruct (assoc (default_refs LIB) b) as [rb|] eqn:B; [|rewrite (D _ B); discriminate].
  intros [= ->] [= ->]. apply default_array in A, B. destruct A as [[-> ->]|[-> ->]], B as [[-> ?]|[-> ?]]; congruence.
Qed.
Lemma init_own files : Own (init files).
Proof.
  split; [apply init_inv|]. unfold unshared. change (cfg (init files)) with (put_all (fun _ => None) (default_refs LIB)).
  split; [intros a b l|intros a l]; rewrite !put_defaults; [|destruct (assoc (default_refs LIB) a) as [ra|] eqn:A; [|discriminate]; intros [= ->]; apply (default_box a l A)].
  destruct (assoc (default_refs LIB) a) as [ra|] eqn:A; [|discriminate].
  destruct (assoc (default_refs LIB) b) as [rb|] eqn:B; [|discriminate].
  intros [= ->] [= ->]. apply default_array in A, B. destruct A as [[-> ->]|[-> ->]], B as [[-> ?]|[-> ?]]; congruence.
Qed.
Lemma mutate_cfg s k i x : cfg (fst (mutate s k i x)) = cfg s.
Proof. unfold mutate. destruct (cfg s k) as [[v|l]|]; try reflexivity. destruct (Nat.ltb _ _); reflexivity. Qed.

Lemma run_own p : forall s s' o, no_update p -> Own s -> run p s = (s', o) -> Own s'.
Proof.
  induction p as [|e|k v|k f IH|k| |path|path|k i x|path c|k v|p IHp q IHq|k v p IHp|p IHp q IHq];
    intros s s' o N I0; cbn.
  - intros [= <- _]; exact I0.
  - intros [= <- _]; exact I0.
  - apply setitem_own, I0.
  - destruct (cfg s k) as [r|]; [|intros [= <- _]; exact I0]. apply IH; [apply N|exact I0].
  - unfold reset. destruct (assoc _ k); [apply setitem_own, I0|intros [= <- _]; exact I0].
  - intros E. split; [eapply fullreset_inv; [apply I0|exact E]|]. apply (f_equal fst) in E.
    change (mkst (put_all (cfg s) (default_refs LIB)) (heap s) (next s) (fs s) = s') in E. subst s'. apply defaults_unshared, I0.
  - unfold load. destruct (fs s path) as [[items| |]|]; try (intros [= <- _]; exact I0). apply set_items_own, I0.
  - intros E. split; [eapply save_inv; [apply I0|exact E]|]. destruct I0 as [_ U]. unfold save in E. destruct (writable path); injection E as <- _; exact U.
  - intros E. split; [eapply mutate_inv; [apply I0|exact E]|]. apply (f_equal fst) in E. cbn [fst] in E. subst s'. unfold unshared. rewrite mutate_cfg. apply I0.
  - intros [= <- _]. split; [apply files_inv, I0|]. exact (proj2 I0).
  - destruct N.
  - destruct N as [N1 N2]. destruct (run p s) as [s1 [e|]] eqn:E.
    + intros [= <- _]. eapply IHp; eassumption.
    + apply IHq; [exact N2|]. eapply IHp; eassumption.
  - destruct (cfg s k) as [old|]; [|intros [= <- _]; exact I0].
    destruct (setitem s k v) as [s1 [e|]] eqn:E1.
    + intros [= <- _]. eapply setitem_own; eassumption.
    + destruct (run p s1) as [s2 [e|]] eqn:E2.
      * intros [= <- _]. eapply IHp; [exact N| |exact E2]. eapply setitem_own; eassumption.
      * apply setitem_own. eapply IHp; [exact N| |exact E2]. eapply setitem_own; eassumption.
  - destruct N as [N1 N2]. destruct (run p s) as [s1 [e|]] eqn:E.
    + apply IHq; [exact N2|]. eapply IHp; eassumption.
    + intros [= <- _]. eapply IHp; eassumption.
Qed.

Lemma in_place files p s o k i x : no_update p -> run p (init files) = (s, o) ->
  match read s k with
  | None => run (Mutate k i x) s = (s, Some KeyError)
  | Some (VVec l) =>
      if (i <? List.length l)%nat
      then exists s', run (Mutate k i x) s = (s', None) /\ read s' k = Some (VVec (firstn i l ++ x :: skipn (S i) l)%list) /\
             forall k', k' <> k -> read s' k' = read s k'
      else run (Mutate k i x) s = (s, Some IndexError)
  | Some _ => run (Mutate k i x) s = (s, Some TypeError)
  end.
Proof.
  intros N E. destruct (run_own p _ _ _ N (init_own files) E) as [I [U BX]]. cbn [M_Config.run]. unfold mutate, read.
  destruct (cfg s k) as [[v|l]|] eqn:C; [|cbn [option_map deref]|reflexivity].
  - cbn [option_map deref]. destruct v; try reflexivity. exfalso. exact (BX _ _ C).
  - destruct (Nat.ltb i (List.length (heap s l))); [|reflexivity]. eexists. split; [reflexivity|]. cbn [cfg heap]. rewrite C. cbn [option_map deref heap].
    rewrite Nat.eqb_refl. split; [reflexivity|]. intros k' Hk. destruct (cfg s k') as [[v|l']|] eqn:C'; try reflexivity. cbn [option_map deref heap].
    destruct (Nat.eqb_spec l' l) as [->|]; [|reflexivity]. exfalso. apply Hk. eapply U; eassumption.
Qed.
End P.
