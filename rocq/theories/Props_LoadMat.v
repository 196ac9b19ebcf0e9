(** C143: reading the variables of a MAT-file. *)
From Coq Require Import Reals List Arith String Bool.
From Verif Require Import M_Prelude M_Matfile M_LoadMat Spec_LoadMat P_LoadMat.
Import ListNotations.

(** Structures nested to any depth, in either format and wrapped or not, are
    read as the same nested dictionaries; of the arrays only the axes of
    length one are lost. *)
Theorem C143_nested_structures : forall t v, stored t v -> traverse_struct v = plain t.
Proof. exact stored_plain. Qed.

(** The files of both formats are read identically. *)
Theorem C143_formats_agree : forall t v v', stored t v -> stored t v' -> traverse_struct v = traverse_struct v'.
Proof. intros t v v' H H'. rewrite (stored_plain _ _ H), (stored_plain _ _ H'). reflexivity. Qed.

(** Every variable keeps its name and place; data['name']['a']['b'] is the
    stored part of these names. *)
Theorem C143_following_names : forall out i k t v path t', nth_error out i = Some (k, v) ->
  ~ ((exists r, k = ("__" ++ r)%string) /\ (exists p, k = (p ++ "__")%string)) -> stored t v -> leaf_at t path = Some t' ->
  exists u, nth_error (load_matfile out) i = Some (k, u) /\ item u path = Some (plain t').
Proof.
  intros out i k t v path t' H N. apply load_item; [exact H|]. destruct (private_key k) eqn:E; [|reflexivity]. exfalso. apply N. apply private_key_iff. exact E.
Qed.

Theorem C143_names_and_order_kept : forall out, map fst (load_matfile out) = map fst out.
Proof. exact load_keys. Qed.

(** Variables such as '__header__' are returned as they are. *)
Theorem C143_private_variables : forall out i r p v,
  nth_error out i = Some (("__" ++ r)%string, v) -> ("__" ++ r = p ++ "__")%string ->
  nth_error (load_matfile out) i = Some (("__" ++ r)%string, v).
Proof.
  intros out i r p v H E. rewrite (load_nth _ _ _ _ H).
  assert (X : private_key ("__" ++ r) = true) by (apply private_key_iff; split; [exists r; reflexivity|exists p; exact E]).
  rewrite X. reflexivity.
Qed.
Theorem C143_other_variables_are_converted : forall out i k v, nth_error out i = Some (k, v) ->
  ~ ((exists r, k = ("__" ++ r)%string) /\ (exists p, k = (p ++ "__")%string)) ->
  nth_error (load_matfile out) i = Some (k, traverse_struct v).
Proof.
  intros out i k v H N. rewrite (load_nth _ _ _ _ H). destruct (private_key k) eqn:E; [|reflexivity]. exfalso. apply N. apply private_key_iff. exact E.
Qed.

(** Whatever the file holds, the result has no arrays with fields and no axes
    of length one, and converting it again changes nothing. *)
Theorem C143_result_is_tidy : forall v, tidy (traverse_struct v).
Proof. exact traverse_tidy. Qed.
Theorem C143_twice : forall out, load_matfile (load_matfile out) = load_matfile out.
Proof. exact load_twice. Qed.

(** The elements of a cell array, except of a 1-by-1 one, are returned as
    they are stored. *)
Theorem C143_cells_are_not_converted : forall s l, s <> [1; 1]%nat \/ List.length l <> 1%nat ->
  traverse_struct (Obj s l) = Obj (filter (fun d => negb (d =? 1)%nat) s) l.
Proof. exact cells_kept. Qed.

(** pp.form.coefs of shape (1, 3) in a structure in a structure *)
Definition ex_tree : tree :=
  Node [("name"%string, Leaf (mkarr [1; 1]%nat [7%R])); ("form"%string, Node [("coefs"%string, Leaf (mkarr [1; 3]%nat [1; 2; 3]%R))])].
Definition ex_old : matval :=
  Rec [1; 1]%nat [("name"%string, Obj [1; 1]%nat [Num (mkarr [1; 1]%nat [7%R])]);
                  ("form"%string, Obj [1; 1]%nat [Rec [1; 1]%nat [("coefs"%string, Obj [1; 1]%nat [Num (mkarr [1; 3]%nat [1; 2; 3]%R)])]])].
Example C143_example : stored ex_tree ex_old /\
  stored ex_tree (Dict [("name"%string, Num (mkarr [1; 1]%nat [7%R])); ("form"%string, Dict [("coefs"%string, Num (mkarr [1; 3]%nat [1; 2; 3]%R))])]) /\
  leaf_at ex_tree ["form"; "coefs"]%string = Some (Leaf (mkarr [1; 3]%nat [1; 2; 3]%R)) /\
  item (snd (nth 1 (load_matfile [("__header__"%string, Other 0); ("pp"%string, ex_old)]) (""%string, Other 1))) ["form"; "coefs"]%string
    = Some (Num (mkarr [3]%nat [1; 2; 3]%R)) /\
  private_key "__header__" = true /\ private_key "pp" = false /\ private_key "__pp" = false.
Proof. repeat split; repeat constructor. Qed.

Print Assumptions C143_nested_structures.
Print Assumptions C143_formats_agree.
Print Assumptions C143_following_names.
Print Assumptions C143_names_and_order_kept.
Print Assumptions C143_private_variables.
Print Assumptions C143_other_variables_are_converted.
Print Assumptions C143_result_is_tidy.
Print Assumptions C143_twice.
Print Assumptions C143_cells_are_not_converted.
