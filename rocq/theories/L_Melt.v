From Coq Require Import String List Bool Arith Lia.
From Verif Require Import M_Melt.
Import ListNotations.
Open Scope string_scope.
Open Scope list_scope.
Lemma filter_all {A} (f : A -> bool) l : (forall x, In x l -> f x = true) -> filter f l = l.
Proof. induction l; cbn; intros H; [reflexivity|]. rewrite H by now left. f_equal. apply IHl. intros; apply H; now right. Qed.
Lemma filter_none {A} (f : A -> bool) l : (forall x, In x l -> f x = false) -> filter f l = [].
Proof. induction l; cbn; intros H; [reflexivity|]. rewrite H by now left. apply IHl. intros; apply H; now right. Qed.
Lemma unique_in l x : In x (unique l) <-> In x l.
Proof.
  induction l as [|y l IH]; cbn; [tauto|]. rewrite filter_In, IH. destruct (String.eqb_spec y x) as [->|N]; cbn; [tauto|]. split; intros [?|?]; auto; tauto.
Qed.
Lemma unique_nodup l : NoDup l -> unique l = l.
Proof.
  induction 1 as [|x l N _ IH]; cbn; [reflexivity|]. rewrite IH. f_equal. apply filter_all. intros y Hy. apply negb_true_iff, String.eqb_neq. intros ->. contradiction.
Qed.
Lemma unique_app a b : unique (a ++ b) = unique a ++ filter (fun y => negb (existsb (fun x => String.eqb x y) a)) (unique b).
Proof.
  induction a as [|x a IH]; cbn; [symmetry; apply filter_all; auto|]. f_equal. rewrite IH, filter_app. f_equal.
  clear. induction (unique b) as [|u v IHv]; cbn; [reflexivity|].
  destruct (existsb (fun z => String.eqb z u) a) eqn:E1, (String.eqb x u) eqn:E2; cbn; rewrite ?E1, ?E2; cbn; rewrite ?IHv; reflexivity.
Qed.
Lemma unique_app_incl a b : (forall x, In x b -> In x a) -> unique (a ++ b) = unique a.
Proof.
  intros H. rewrite unique_app, filter_none; [apply app_nil_r|]. intros y Hy. rewrite unique_in in Hy. apply negb_false_iff, existsb_exists. exists y. split; [exact (H y Hy)|apply String.eqb_refl].
Qed.
Lemma unique_repeat (subs : list string) n : NoDup subs -> unique (List.concat (repeat subs (S n))) = subs.
Proof.
  intros H. cbn. rewrite unique_app_incl; [now apply unique_nodup|]. intros x Hx. apply in_concat in Hx. destruct Hx as (l & Hl & Hx). apply repeat_spec in Hl. now subst.
Qed.
Lemma unique_const_blocks {A} (f : A -> string) (g : A -> list string) l : (forall a, In a l -> g a <> [] /\ forall x, In x (g a) -> x = f a) -> NoDup (List.map f l) ->
  unique (List.concat (List.map g l)) = List.map f l.
Proof.
  induction l as [|a l IH]; cbn; intros H ND; [reflexivity|]. inversion ND as [|? ? N ND']; subst.
  destruct (H a (or_introl eq_refl)) as [H1 H2]. destruct (g a) as [|y ys] eqn:E; [congruence|]. assert (y = f a) by (apply H2; now left). subst y. cbn. f_equal.
  assert (K : forall ys l, (forall x, In x ys -> x = f a) -> (forall x, In x l -> x <> f a) -> filter (fun y => negb (String.eqb (f a) y)) (unique (ys ++ l)) = unique l).
  { clear. induction ys as [|z ys IH]; cbn; intros l H1 H2.
    - apply filter_all. intros x Hx. rewrite unique_in in Hx. apply negb_true_iff, String.eqb_neq. intros E. apply (H2 x Hx). now symmetry.
    - rewrite (H1 z) by now left. rewrite String.eqb_refl. cbn. rewrite IH by auto. apply filter_all. intros x Hx. rewrite unique_in in Hx.
      apply negb_true_iff, String.eqb_neq. intros E. apply (H2 x Hx). now symmetry. }
  rewrite K.
  - apply IH; [|exact ND']. intros b Hb. apply H. now right.
  - intros x Hx. apply H2. now right.
  - intros x Hx ->. apply in_concat in Hx. destruct Hx as (s & Hs & Hx). apply in_map_iff in Hs. destruct Hs as (b & <- & Hb).
    apply (H b (or_intror Hb)) in Hx. apply N. rewrite Hx. now apply in_map.
Qed.
Lemma lookup_nodup {A} (l : list (string * A)) n a : NoDup (List.map fst l) -> In (n, a) l -> lookup n l = Some a.
Proof.
  induction l as [|[m b] l IH]; cbn; [tauto|]. intros ND HI. inversion ND as [|? ? N ND']; subst. destruct HI as [HI|HI].
  - injection HI as -> ->. now rewrite String.eqb_refl.
  - destruct (String.eqb_spec m n) as [->|]; [|auto]. exfalso. apply N. now apply (in_map fst) in HI.
Qed.
Lemma combine_seq_map {A B} (f : nat -> A -> B) l k d : List.map (fun p => f (fst p) (snd p)) (combine (seq k (List.length l)) l) = List.map (fun i => f (k + i) (nth i l d)) (seq 0 (List.length l)).
Proof.
  revert k. induction l as [|a l IH]; intros k; cbn; [reflexivity|]. rewrite Nat.add_0_r. f_equal. rewrite IH, <- seq_shift, map_map. apply map_ext. intros i. now rewrite <- Nat.add_succ_comm.
Qed.
Lemma map_nth_seq {A} (l : list A) d : List.map (fun i => nth i l d) (seq 0 (List.length l)) = l.
Proof. induction l as [|a l IH]; cbn; [reflexivity|]. f_equal. rewrite <- seq_shift, map_map. exact IH. Qed.

Section L.
Context {V : Type}.
Variable veqb : V -> V -> bool.
Hypothesis veqb_refl : forall v, veqb v v = true.
Variable falsy : V -> bool.
Variable zero : V.
Lemma label_refl (a : list V) : label_eqb veqb a a = true.
Proof. induction a; cbn; [reflexivity|]. now rewrite veqb_refl. Qed.
Lemma index_refl (a : list (list V)) : index_eqb veqb a a = true.
Proof. induction a; cbn; [reflexivity|]. now rewrite label_refl. Qed.
Lemma keep_all {A} (drop : list bool) (l : list A) : List.length drop = List.length l -> Forall (fun b => b = false) drop -> keep drop l = l.
Proof.
  unfold keep. revert l. induction drop as [|b drop IH]; intros [|x l] HL HF; try discriminate; [reflexivity|]. inversion HF as [|? ? -> HF']; subst.
  cbn. f_equal. apply IH; auto.
Qed.
(** rows of one metric *)
Definition rows_of (w : wide V) (cols : list string) (m : string * list (string * list (option V))) :=
  List.map (fun il => (fst m, snd il, List.map (fun c => match lookup c (snd m) with Some cells => nth (fst il) cells None | None => None end) cols))
    (combine (seq 0 (List.length (w_index w))) (w_index w)).
Lemma block_raw (w : wide V) levels cols ms m : NoDup (List.map fst ms) -> In m ms ->
  block {| l_levels := levels; l_cols := cols; l_rows := List.concat (List.map (rows_of w cols) ms) |} (fst m) =
  List.map (fun r => (snd (fst r), snd r)) (rows_of w cols m).
Proof.
  intros ND HI. unfold block. cbn [l_rows]. f_equal. induction ms as [|m' ms IH]; cbn; [destruct HI|]. inversion ND as [|? ? N ND']; subst. rewrite filter_app.
  assert (KN : forall m0 : string * list (string * list (option V)), filter (fun r => String.eqb (fst (fst r)) (fst m)) (rows_of w cols m0) = if String.eqb (fst m0) (fst m) then rows_of w cols m0 else []).
  { clear. intros m0. unfold rows_of. destruct (String.eqb (fst m0) (fst m)) eqn:E.
    - apply filter_all. intros x Hx. apply in_map_iff in Hx. destruct Hx as (y & <- & _). exact E.
    - apply filter_none. intros x Hx. apply in_map_iff in Hx. destruct Hx as (y & <- & _). exact E. }
  rewrite KN. destruct HI as [->|HI].
  - rewrite String.eqb_refl. rewrite filter_none; [apply app_nil_r|]. intros x Hx. apply in_concat in Hx. destruct Hx as (s & Hs & Hx). apply in_map_iff in Hs.
    destruct Hs as (m0 & <- & Hm). unfold rows_of in Hx. apply in_map_iff in Hx. destruct Hx as (y & <- & _). cbn. apply String.eqb_neq. intros E. apply N. rewrite <- E. now apply in_map.
  - destruct (String.eqb_spec (fst m') (fst m)) as [E|_]; [exfalso; apply N; rewrite E; now apply in_map|]. cbn. now apply IH.
Qed.
End L.
