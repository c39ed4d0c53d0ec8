(** C73: Jackknife and Bootstrap precompute exactly when every leaf can be expressed by sums. *)
From Coq Require Import Reals List Bool String Arith ZArith Lia.
From Verif Require Import M_Num M_Frame M_Leaf M_Precomp S_Precomp L_Precomp.
Import ListNotations.
Open Scope list_scope.

(** Whatever equivalents the user's metrics declare: the fast path is taken if and only if it is enabled (for Bootstrap also: there is a unit) and
    the fully expanded child has only Sum and Count leaves (for Bootstrap also Max and Min) and no Jackknife or Bootstrap inside. *)
Theorem C73_fast_path_iff : forall user jackknife enable_optimization has_unit child e,
  (forall n, user n <> Some (TLeaf (KUser n))) -> fully_expanded user child e ->
  (fast_path user jackknife enable_optimization has_unit child <->
   (jackknife = true \/ has_unit = true) /\ enable_optimization = true /\ only_sums jackknife e).
Proof. intros user jk en un t e H He. rewrite (fast_iff user H jk en un t e He), andb_true_iff, orb_true_iff. tauto. Qed.
Print Assumptions C73_fast_path_iff.
(** For metrics of the library the expansion always ends, and the fast path is taken unless there is a leaf without equivalent. *)
Theorem C73_built_in : forall user jackknife enable_optimization has_unit child,
  (forall n, user n <> Some (TLeaf (KUser n))) -> built_in child ->
  (exists e, fully_expanded user child e) /\
  (fast_path user jackknife enable_optimization has_unit child <->
   (jackknife = true \/ has_unit = true) /\ enable_optimization = true /\
   (forall k, In k (ends child) -> expandable jackknife k) /\ (forall n cs, In (n, cs) (nodes child) -> n <> NOperation false /\ cs <> [])).
Proof.
  intros user jk en un t H Hb. assert (fully_expanded user t (Nat.iter 6 (expand_tree user) t)) as He by (exists 6%nat; split; [reflexivity|now apply built_in_ends]).
  split; [eauto|]. rewrite (C73_fast_path_iff user jk en un t _ H He), (built_in_sums user jk t Hb). tauto.
Qed.
(** can_precompute alone (its docstring: "LOO can be precomputed if all leaves can be expressed as Sum or Count") accepts a metric whose equivalent
    is a single metric without looking at it; the expansion is checked again, so the general path is taken. *)
Theorem C73_first_check_refuted : exists user child e,
  can_precompute user true true true child /\ fully_expanded user child e /\ ends e = [KOther 0] /\ ~ fast_path user true true true child.
Proof.
  pose (user := fun n : nat => Some (TLeaf (KOther 0))).
  assert (fully_expanded user (TLeaf (KUser 0)) (TLeaf (KOther 0))) as He by (exists 1%nat; split; reflexivity).
  exists user, (TLeaf (KUser 0)), (TLeaf (KOther 0)). repeat split; auto.
  - exists 1%nat. reflexivity.
  - rewrite (C73_fast_path_iff user true true true (TLeaf (KUser 0)) (TLeaf (KOther 0))); [|discriminate|exact He]. intros (_ & _ & H & _).
    destruct (H (KOther 0) (or_introl eq_refl)) as [[c E]|[[c E]|[E _]]]; discriminate.
Qed.
(** A metric that declares itself as its equivalent is taken for a sum. *)
Theorem C73_own_equivalent_refuted : exists user child, ends child = [KUser 0] /\ fully_expanded user child child /\ fast_path user true true true child.
Proof.
  pose (user := fun n : nat => Some (TLeaf (KUser n))). exists user, (TLeaf (KUser 0)). assert (fully_expanded user (TLeaf (KUser 0)) (TLeaf (KUser 0))) as He by (exists O; split; reflexivity).
  split; [reflexivity|]. split; [exact He|]. apply fast_now; [|exact He]. split; [reflexivity|]. exists 1%nat. reflexivity.
Qed.

(** ** Cases: PercentChange of a weighted Variance over CV; with Max; with Quantile; inside another Jackknife *)
Definition case (k : kind) : tree := TNode (NOperation true) [TNode NPlain [TLeaf (KSimple (LVar (Col "x") 1 (Some (Col "w")))); TLeaf k; TConst 2]].
Example C73_case : built_in (case (KSimple (LCV (Col "y") 1))) /\ fast_path (fun _ => None) true true false (case (KSimple (LCV (Col "y") 1))) /\
  ~ fast_path (fun _ => None) true true false (case (KMax "x")) /\ fast_path (fun _ => None) false true true (case (KMax "x")) /\ ~ fast_path (fun _ => None) false true false (case (KMax "x")) /\
  ~ fast_path (fun _ => None) false true true (case (KOther 0)) /\
  ~ fast_path (fun _ => None) true true false (TNode (NOperation false) [case (KSimple (LCV (Col "y") 1))]).
Proof.
  assert (forall k, (forall n, k <> KUser n) -> built_in (case k)) as Hb by (intros k Hk n [E|[E|[]]]; [discriminate|now apply (Hk n)]).
  assert (forall n : nat, (fun _ : nat => @None tree) n <> Some (TLeaf (KUser n))) as Hu by discriminate.
  assert (forall k n cs, In (n, cs) (nodes (case k)) -> n <> NOperation false /\ cs <> []) as Hn by (intros k n cs [E|[E|[]]]; injection E as <- <-; split; discriminate).
  split; [apply Hb; discriminate|].
  split; [apply C73_built_in; auto; [apply Hb; discriminate|]; repeat split; [now left| |destruct (Hn _ _ _ H); assumption|destruct (Hn _ _ _ H); assumption]; intros k [<-|[<-|[]]]; exact I|].
  split. { intros H. apply C73_built_in in H as (_ & _ & H & _); auto; [|apply Hb; discriminate]. specialize (H (KMax "x") ltac:(right; left; reflexivity)). discriminate. }
  split. { apply C73_built_in; auto; [apply Hb; discriminate|]. repeat split; [now right| |destruct (Hn _ _ _ H); assumption|destruct (Hn _ _ _ H); assumption]. intros k [<-|[<-|[]]]; [exact I|reflexivity]. }
  split. { intros H. apply C73_built_in in H as (H & _); auto; [|apply Hb; discriminate]. destruct H; discriminate. }
  split. { intros H. apply C73_built_in in H as (_ & _ & H & _); auto; [|apply Hb; discriminate]. exact (H (KOther 0) ltac:(right; left; reflexivity)). }
  intros H. apply C73_built_in in H as (_ & _ & _ & H); auto; [now destruct (H (NOperation false) _ (or_introl eq_refl))|]. intros n [E|[E|[]]]; discriminate.
Qed.
