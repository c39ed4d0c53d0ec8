(** Sorting exists: the database and pandas can do what S_SqlOps asks of them. *)
From Coq Require Import Reals List Bool String Arith Permutation Sorted Lia Lra.
From Verif Require Import M_Num M_Frame L_Frame M_SqlLeaf M_SqlOps S_SqlOps L_SqlOps3.
Import ListNotations.
Open Scope list_scope.

Section Sort.
  Context {A : Type} (cmp : A -> A -> comparison).
  Fixpoint cinsert (x : A) (l : list A) : list A :=
    match l with [] => [x] | y :: l' => match cmp x y with Gt => y :: cinsert x l' | _ => x :: l end end.
  Definition csort (l : list A) : list A := fold_right cinsert [] l.
  Variable P : A -> Prop.
  Hypothesis Hanti : forall a b, P a -> P b -> cmp b a = CompOpp (cmp a b).
  Hypothesis Htrans : forall a b c, P a -> P b -> P c -> cmp a b <> Gt -> cmp b c <> Gt -> cmp a c <> Gt.

  Lemma cinsert_perm x l : Permutation (cinsert x l) (x :: l).
  Proof. induction l as [|y l IH]; cbn; auto. destruct (cmp x y); auto. rewrite IH. constructor. Qed.
  Lemma csort_perm l : Permutation (csort l) l.
  Proof. induction l; cbn; auto. rewrite cinsert_perm. now constructor. Qed.
  Lemma cinsert_sorted x l : P x -> Forall P l -> StronglySorted (fun a b => cmp a b <> Gt) l -> StronglySorted (fun a b => cmp a b <> Gt) (cinsert x l).
  Proof.
    intros Hx Hl Hs. induction Hs as [|y l Hs IH Hf]; cbn; [repeat constructor|]. inversion Hl as [|? ? Hy Hl']; subst. destruct (cmp x y) eqn:E.
    1,2: constructor; [now constructor|]; constructor; [congruence|]; rewrite Forall_forall in *; intros z Hz; apply (Htrans x y z); auto; congruence.
    constructor; [auto|]. apply (Permutation_Forall (Permutation_sym (cinsert_perm x l))). constructor; [|exact Hf].
    rewrite (Hanti x y) by assumption. rewrite E. discriminate.
  Qed.
  Lemma csort_sorted l : Forall P l -> StronglySorted (fun a b => cmp a b <> Gt) (csort l).
  Proof.
    induction 1 as [|x l Hx Hl IH]; cbn; [constructor|]. apply cinsert_sorted; auto. apply (Permutation_Forall (Permutation_sym (csort_perm l))). exact Hl.
  Qed.
End Sort.

(** ** The orders are orders *)
Lemma lt_le_trans {A} (cmp : A -> A -> comparison) :
  (forall a b, cmp b a = CompOpp (cmp a b)) -> (forall a b c, cmp a b <> Gt -> cmp b c <> Gt -> cmp a c <> Gt) ->
  forall a b c, cmp a b <> Gt -> cmp b c <> Gt -> cmp a c = Eq -> cmp a b = Eq /\ cmp b c = Eq.
Proof.
  intros Ha Ht a b c H1 H2 E. split.
  - assert (cmp b a <> Gt) as H by (apply (Ht b c a); [exact H2|rewrite (Ha a c), E; discriminate]). rewrite (Ha a b) in H. destruct (cmp a b); cbn in H; congruence.
  - assert (cmp c b <> Gt) as H by (apply (Ht c a b); [rewrite (Ha a c), E; discriminate|exact H1]). rewrite (Ha b c) in H. destruct (cmp b c); cbn in H; congruence.
Qed.
Lemma str_le_trans a b c : str_cmp a b <> Gt -> str_cmp b c <> Gt -> str_cmp a c <> Gt.
Proof.
  intros H1 H2. destruct (str_cmp a b) eqn:E1; [apply str_cmp_eq in E1; now subst| |congruence].
  destruct (str_cmp b c) eqn:E2; [apply str_cmp_eq in E2; subst; congruence| |congruence]. rewrite (str_cmp_trans a b c E1 E2). discriminate.
Qed.
Lemma key_le_trans a b c : key_cmp a b <> Gt -> key_cmp b c <> Gt -> key_cmp a c <> Gt.
Proof.
  intros H1 H2. destruct (key_cmp a b) eqn:E1; [apply key_cmp_eq in E1; now subst| |congruence].
  destruct (key_cmp b c) eqn:E2; [apply key_cmp_eq in E2; subst; congruence| |congruence]. rewrite (key_cmp_trans a b c E1 E2). discriminate.
Qed.
Lemma cell_anti a b : cell_cmp b a = CompOpp (cell_cmp a b).
Proof. destruct a, b; cbn; try reflexivity; [apply str_cmp_anti|apply Rcmp_anti]. Qed.
Lemma cell_trans a b c : cell_cmp a b <> Gt -> cell_cmp b c <> Gt -> cell_cmp a c <> Gt.
Proof.
  destruct a, b, c; cbn; try congruence; try apply str_le_trans.
  intros H1 H2. apply Rcmp_le in H1. apply Rcmp_le in H2. apply Rcmp_le. lra.
Qed.
Lemma nat_le a b : Nat.compare a b <> Gt <-> (a <= b)%nat. Proof. apply Nat.compare_le_iff. Qed.
Lemma okey_anti k a b : okey_cmp k b a = CompOpp (okey_cmp k a b).
Proof.
  destruct k as [c d|c o d]; cbn.
  - rewrite (cell_anti (a (Plain c)) (b (Plain c))). destruct d; reflexivity.
  - rewrite (Nat.compare_antisym (case_value (a (Plain c)) o)). destruct d; reflexivity.
Qed.
Lemma okey_trans k a b c : okey_cmp k a b <> Gt -> okey_cmp k b c <> Gt -> okey_cmp k a c <> Gt.
Proof.
  destruct k as [x d|x o d]; cbn; destruct d; cbn.
  - rewrite <- !cell_anti. intros H1 H2. now apply (cell_trans _ (b (Plain x))).
  - apply cell_trans.
  - rewrite <- !Nat.compare_antisym, !nat_le. lia.
  - rewrite !nat_le. lia.
Qed.
Lemma order_anti o a b : order_cmp o b a = CompOpp (order_cmp o a b).
Proof. induction o as [|k o IH]; cbn; [reflexivity|]. rewrite (okey_anti k a b). destruct (okey_cmp k a b); cbn; auto. Qed.
Lemma order_trans o a b c : order_cmp o a b <> Gt -> order_cmp o b c <> Gt -> order_cmp o a c <> Gt.
Proof.
  induction o as [|k o IH]; cbn; [congruence|]. intros H1 H2.
  assert (okey_cmp k a b <> Gt) as K1 by (destruct (okey_cmp k a b); congruence). assert (okey_cmp k b c <> Gt) as K2 by (destruct (okey_cmp k b c); congruence).
  pose proof (okey_trans k a b c K1 K2) as K3. destruct (okey_cmp k a c) eqn:E; try congruence.
  destruct (lt_le_trans (okey_cmp k) (okey_anti k) (okey_trans k) a b c K1 K2 E) as [E1 E2]. rewrite E1 in H1. rewrite E2 in H2. auto.
Qed.

(** A database and a pandas that sort by insertion. *)
Definition db_sort (o : list okey) (l : list env) : list env := csort (order_cmp o) l.
Definition frame_order (how : cum_how) (asc : bool) (n : nat) (a b : list string * num) : comparison := if asc then frame_cmp how n a b else frame_cmp how n b a.
Definition pd_sort (how : cum_how) (asc : bool) (n : nat) (l : rframe) : rframe := csort (frame_order how asc n) l.
Lemma db_sort_sorts : db_sorts db_sort.
Proof.
  intros o l. split; [apply csort_perm|]. apply (csort_sorted _ (fun _ => True)); [intros; apply order_anti|intros; eapply order_trans; eauto|].
  apply Forall_forall. auto.
Qed.
(** the same, but equal rows come out in the opposite order *)
Definition db_sort_rev (o : list okey) (l : list env) : list env := db_sort o (rev l).
Lemma db_sort_rev_sorts : db_sorts db_sort_rev.
Proof.
  intros o l. destruct (db_sort_sorts o (rev l)) as [H1 H2]. split; [|exact H2]. etransitivity; [exact H1|]. symmetry. apply Permutation_rev.
Qed.
Definition finite_if (how : cum_how) (r : list string * num) : Prop := how = CumValues -> exists x, snd r = Fin x.
Lemma frame_anti how n a b : finite_if how a -> finite_if how b -> frame_cmp how n b a = CompOpp (frame_cmp how n a b).
Proof.
  intros Ha Hb. destruct how; cbn; try apply key_cmp_anti. destruct (Ha eq_refl) as [x ->], (Hb eq_refl) as [y ->]. apply Rcmp_anti.
Qed.
Lemma frame_trans how n a b c : finite_if how a -> finite_if how b -> finite_if how c ->
  frame_cmp how n a b <> Gt -> frame_cmp how n b c <> Gt -> frame_cmp how n a c <> Gt.
Proof.
  intros Ha Hb Hc. destruct how; cbn; try apply key_le_trans. destruct (Ha eq_refl) as [x ->], (Hb eq_refl) as [y ->], (Hc eq_refl) as [z ->].
  rewrite !Rcmp_le. lra.
Qed.
Lemma pd_sort_sorts : pandas_sorts pd_sort.
Proof.
  intros how asc n l H. split; [apply csort_perm|].
  pose proof (csort_sorted (frame_order how asc n) (finite_if how)) as HS.
  assert (StronglySorted (fun a b => frame_order how asc n a b <> Gt) (csort (frame_order how asc n) l)) as H1; [|exact H1].
  apply HS.
  - intros a b Ha Hb. unfold frame_order. destruct asc; apply frame_anti; auto.
  - intros a b c Ha Hb Hc. unfold frame_order. destruct asc; intros; [apply (frame_trans how n a b c)|apply (frame_trans how n c b a)]; auto.
  - apply Forall_forall. intros r Hr E. auto.
Qed.
