(** Proofs behind Props_LoadMat. *)
From Coq Require Import Reals List Arith String Ascii Bool Lia.
From Verif Require Import M_Prelude M_Matfile M_LoadMat Spec_LoadMat.
Import ListNotations.

Section Ind.
Variable P : matval -> Prop.
Hypothesis HDict : forall l, (forall k v, In (k, v) l -> P v) -> P (Dict l).
Hypothesis HNum : forall a, P (Num a).
Hypothesis HObj : forall s l, (forall v, In v l -> P v) -> P (Obj s l).
Hypothesis HRec : forall s l, (forall k v, In (k, v) l -> P v) -> P (Rec s l).
Hypothesis HOther : forall n, P (Other n).
Fixpoint matval_ind' (v : matval) : P v :=
  match v with
  | Dict l => HDict l ((fix F (l : list (string * matval)) : forall k v, In (k, v) l -> P v :=
      match l with
      | [] => fun k v H => match H with end
      | kv :: r => fun k v H => match H with
                                | or_introl E => match E in _ = q return P (snd q) with eq_refl => matval_ind' (snd kv) end
                                | or_intror H' => F r k v H'
                                end
      end) l)
  | Num a => HNum a
  | Obj s l => HObj s l ((fix F (l : list matval) : forall v, In v l -> P v :=
      match l with
      | [] => fun v H => match H with end
      | x :: r => fun v H => match H with
                             | or_introl E => match E in _ = q return P q with eq_refl => matval_ind' x end
                             | or_intror H' => F r v H'
                             end
      end) l)
  | Rec s l => HRec s l ((fix F (l : list (string * matval)) : forall k v, In (k, v) l -> P v :=
      match l with
      | [] => fun k v H => match H with end
      | kv :: r => fun k v H => match H with
                                | or_introl E => match E in _ = q return P (snd q) with eq_refl => matval_ind' (snd kv) end
                                | or_intror H' => F r k v H'
                                end
      end) l)
  | Other n => HOther n
  end.
End Ind.

Scheme stored_mind := Minimality for stored Sort Prop
  with stored_fields_mind := Minimality for stored_fields Sort Prop.

Lemma stored_plain t v : stored t v -> traverse_struct v = plain t.
Proof.
  apply (stored_mind (fun t v => traverse_struct v = plain t)
    (fun l l' => map (fun kv => (fst kv, traverse_struct (snd kv))) l' = map (fun kt => (fst kt, plain (snd kt))) l)).
  - reflexivity.
  - intros l l' _ H. cbn [traverse_struct plain]. rewrite H. reflexivity.
  - intros l l' _ H. cbn [traverse_struct plain]. rewrite H. reflexivity.
  - intros t' v' _ H. exact H.
  - reflexivity.
  - intros k t' v' l l' _ H1 _ H2. cbn [map fst snd]. rewrite H1, H2. reflexivity.
Qed.

Lemma filter_ones s : filter (fun d => negb (d =? 1)%nat) (filter (fun d => negb (d =? 1)%nat) s) = filter (fun d => negb (d =? 1)%nat) s.
Proof. induction s as [|d s IH]; [reflexivity|]. cbn [filter]. destruct (d =? 1)%nat eqn:E; cbn [negb]; [exact IH|]. cbn [filter]. rewrite E. cbn [negb]. rewrite IH. reflexivity. Qed.
Lemma no_ones s : ~ In 1%nat (filter (fun d => negb (d =? 1)%nat) s).
Proof. intros H. apply filter_In in H. destruct H as [_ H]. discriminate. Qed.

Lemma obj_cases s l (T : matval -> Prop) : (forall x, s = [1; 1]%nat -> l = [x] -> T (traverse_struct x)) ->
  T (Obj (squeeze_shape s) l) -> T (traverse_struct (Obj s l)).
Proof.
  intros H1 H2. cbn [traverse_struct].
  destruct s as [|[|[|d]] [|[|[|e]] [|f s]]]; try exact H2. destruct l as [|x [|y l]]; try exact H2. apply H1; reflexivity.
Qed.

Lemma traverse_tidy v : tidy (traverse_struct v).
Proof.
  induction v as [l IH|a|s l IH|s l IH|n] using matval_ind'.
  - cbn [traverse_struct]. constructor. intros k v H. apply in_map_iff in H. destruct H as ([k' v'] & E & H). injection E as <- <-. exact (IH _ _ H).
  - cbn [traverse_struct]. constructor. apply no_ones.
  - apply obj_cases.
    + intros x _ ->. apply IH. left. reflexivity.
    + constructor. apply no_ones.
  - cbn [traverse_struct]. constructor. intros k v H. apply in_map_iff in H. destruct H as ([k' v'] & E & H). injection E as <- <-. exact (IH _ _ H).
  - constructor.
Qed.

(** A tidy value is not changed. *)
Lemma squeeze_id s : ~ In 1%nat s -> filter (fun d => negb (d =? 1)%nat) s = s.
Proof.
  induction s as [|d s IH]; [reflexivity|]. intros H. cbn [filter]. destruct (Nat.eqb_spec d 1) as [->|_].
  - exfalso. apply H. left. reflexivity.
  - cbn [negb]. rewrite IH; [reflexivity|]. intros X. apply H. right. exact X.
Qed.
Lemma tidy_fixed v : tidy v -> traverse_struct v = v.
Proof.
  induction v as [l IH|a|s l IH|s l IH|n] using matval_ind'; intros T; inversion T as [l0 H|a0 H|s0 l0 H|n0]; subst.
  - cbn [traverse_struct]. f_equal. rewrite <- (map_id l) at 2. apply map_ext_in. intros [k v] Hk. cbn [fst snd]. rewrite (IH k v Hk (H k v Hk)). reflexivity.
  - cbn [traverse_struct]. unfold squeeze. rewrite squeeze_id by exact H. destruct a; reflexivity.
  - apply obj_cases.
    + intros x -> _. exfalso. apply H. left. reflexivity.
    + unfold squeeze_shape. rewrite squeeze_id by exact H. reflexivity.
  - reflexivity.
Qed.

(** ** Keys *)
Lemma prefix_iff p s : String.prefix p s = true <-> exists r, s = (p ++ r)%string.
Proof.
  revert s. induction p as [|c p IH]; intros s; cbn [String.prefix append].
  - split; [intros _; exists s; reflexivity|]. destruct s; reflexivity.
  - destruct s as [|d s]; [split; [discriminate|intros (r & E); discriminate]|].
    cbn [String.prefix append]. destruct (ascii_dec c d) as [<-|N].
    + destruct (IH s) as [I1 I2]. split; [intros H; destruct (I1 H) as (r & ->); exists r; reflexivity|intros (r & E); apply I2; exists r; injection E as E; exact E].
    + split; [discriminate|]. intros (r & E). injection E as E _. congruence.
Qed.
Lemma list_ascii_app a b : list_ascii_of_string (a ++ b)%string = (list_ascii_of_string a ++ list_ascii_of_string b)%list.
Proof. induction a as [|c a IH]; [reflexivity|]. cbn. rewrite IH. reflexivity. Qed.
Lemma private_key_iff key : private_key key = true <-> (exists r, key = ("__" ++ r)%string) /\ (exists p, key = (p ++ "__")%string).
Proof.
  unfold private_key. rewrite andb_true_iff, !prefix_iff.
  assert (X : (exists r, string_of_list_ascii (rev (list_ascii_of_string key)) = ("__" ++ r)%string) <-> exists p, key = (p ++ "__")%string).
  { split.
    - intros (r & E). exists (string_of_list_ascii (rev (list_ascii_of_string r))).
      apply (f_equal list_ascii_of_string) in E. rewrite list_ascii_of_string_of_list_ascii, list_ascii_app in E.
      apply (f_equal (@rev ascii)) in E. rewrite rev_involutive, rev_app_distr in E.
      rewrite <- (string_of_list_ascii_of_string key), E.
      rewrite <- (string_of_list_ascii_of_string (string_of_list_ascii (rev (list_ascii_of_string r)) ++ "__")%string).
      rewrite list_ascii_app, list_ascii_of_string_of_list_ascii. reflexivity.
    - intros (p & ->). exists (string_of_list_ascii (rev (list_ascii_of_string p))).
      rewrite list_ascii_app, rev_app_distr. reflexivity. }
  rewrite X. tauto.
Qed.

Lemma load_keys out : map fst (load_matfile out) = map fst out.
Proof. unfold load_matfile. rewrite map_map. apply map_ext. intros [k v]. cbn [fst]. destruct (private_key k); reflexivity. Qed.

Lemma load_nth out i k v : nth_error out i = Some (k, v) ->
  nth_error (load_matfile out) i = Some (k, if private_key k then v else traverse_struct v).
Proof.
  intros H. unfold load_matfile. rewrite nth_error_map, H. cbn [option_map fst snd]. destruct (private_key k); reflexivity.
Qed.

Lemma load_twice out : load_matfile (load_matfile out) = load_matfile out.
Proof.
  unfold load_matfile. rewrite map_map. apply map_ext. intros [k v]. cbn [fst snd]. destruct (private_key k) eqn:E; cbn [fst snd]; rewrite E; [reflexivity|].
  rewrite (tidy_fixed _ (traverse_tidy v)). reflexivity.
Qed.

(** ** Following names *)
Lemma find_map {A B} (f : A -> B) (g : B -> bool) l : find g (map f l) = option_map f (find (fun x => g (f x)) l).
Proof. induction l as [|x l IH]; [reflexivity|]. cbn [map find]. destruct (g (f x)); [reflexivity|exact IH]. Qed.
Lemma item_plain path : forall t, item (plain t) path = option_map plain (leaf_at t path).
Proof.
  induction path as [|k p IH]; intros t; [destruct t; reflexivity|]. cbn [item leaf_at]. destruct t as [a|l]; [reflexivity|]. cbn [plain].
  rewrite find_map. cbn [fst]. destruct (find _ l) as [[k' t']|]; [|reflexivity]. cbn [option_map fst snd]. apply IH.
Qed.

Lemma load_item out i k t v path t' : nth_error out i = Some (k, v) -> private_key k = false -> stored t v -> leaf_at t path = Some t' ->
  exists u, nth_error (load_matfile out) i = Some (k, u) /\ item u path = Some (plain t').
Proof.
  intros H1 H2 H3 H4. exists (traverse_struct v). rewrite (load_nth _ _ _ _ H1), H2. split; [reflexivity|].
  rewrite (stored_plain _ _ H3), item_plain, H4. reflexivity.
Qed.

Lemma cells_kept s l : s <> [1; 1]%nat \/ List.length l <> 1%nat -> traverse_struct (Obj s l) = Obj (filter (fun d => negb (d =? 1)%nat) s) l.
Proof.
  intros H. apply obj_cases; [|reflexivity]. intros x -> ->. exfalso. destruct H as [H|H]; apply H; reflexivity.
Qed.
