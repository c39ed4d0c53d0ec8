From Coq Require Import List String Bool.
From Verif Require Import M_SqlGlobal S_SqlGlobal.
Import ListNotations.
Open Scope string_scope.
Open Scope list_scope.

Lemma mem_in x l : mem x l = true <-> In x l.
Proof.
  unfold mem. rewrite existsb_exists. split.
  - intros (y & Hy & E). apply String.eqb_eq in E. congruence.
  - intros H. exists x. split; auto. apply String.eqb_refl.
Qed.
Lemma add1_in c fs d : d <> "" -> (In d (add1 fs c) <-> In d fs \/ d = c).
Proof.
  intros Hd. unfold add1. destruct (String.eqb_spec c "") as [->|Hc]; simpl.
  - split; auto. intros [H| ->]; [auto|congruence].
  - destruct (mem c fs) eqn:E.
    + apply mem_in in E. split; auto. intros [H| ->]; auto.
    + rewrite in_app_iff. simpl. intuition.
Qed.
Lemma add_in cs : forall fs d, d <> "" -> (In d (add fs cs) <-> In d fs \/ In d cs).
Proof.
  induction cs as [|c cs IH]; intros fs d Hd; simpl; [tauto|].
  change (add fs (c :: cs)) with (add (add1 fs c) cs). rewrite IH by exact Hd. rewrite add1_in by exact Hd. intuition.
Qed.
Lemma add1_nonempty fs c : ~ In "" fs -> ~ In "" (add1 fs c).
Proof.
  intros H. unfold add1. destruct (String.eqb_spec c ""); simpl; auto. destruct mem; auto.
  rewrite in_app_iff. simpl. intuition.
Qed.
Lemma add_nonempty cs : forall fs, ~ In "" fs -> ~ In "" (add fs cs).
Proof. induction cs as [|c cs IH]; intros fs H; simpl; [auto|]. apply IH, add1_nonempty, H. Qed.
Lemma remove_in fs gs c : In c (remove fs gs) <-> In c fs /\ ~ In c gs.
Proof.
  unfold remove. rewrite filter_In, negb_true_iff. split; intros [H1 H2]; split; auto.
  - intros X. apply mem_in in X. congruence.
  - destruct (mem c gs) eqn:E; auto. apply mem_in in E. contradiction.
Qed.
Lemma inter_in l x c : In x l -> In c (inter l) -> In c x.
Proof.
  induction l as [|y [|z l] IH]; intros Hx Hc.
  - destruct Hx.
  - destruct Hx as [<-|[]]. exact Hc.
  - cbn [inter] in Hc. apply filter_In in Hc. destruct Hc as [H1 H2]. apply mem_in in H2.
    destruct Hx as [<-|Hx]; [exact H1|]. apply IH; auto.
Qed.
Lemma ftree_rect' (P : ftree -> Prop) : (forall n w cs, Forall P cs -> P (FNode n w cs)) -> forall t, P t.
Proof.
  intros Hn. fix IH 1. intros [n w cs]. apply Hn. induction cs; constructor; [apply IH|assumption].
Qed.

Lemma paths_above t : forall above p, In p (paths above t) -> forall c, In c above -> In c p.
Proof.
  induction t as [n w cs IH] using ftree_rect'; intros above p Hp c Hc.
  destruct cs as [|c0 cs].
  - destruct Hp as [<-|[]]. apply in_app_iff. auto.
  - cbn [paths] in Hp. apply in_flat_map in Hp. destruct Hp as (t & Ht & Hp).
    rewrite Forall_forall in IH. eapply IH; eauto. apply in_app_iff. auto.
Qed.
Lemma paths_own n w cs above p : In p (paths above (FNode n w cs)) -> forall c, In c w -> In c p.
Proof.
  intros Hp c Hc. destruct cs as [|c0 cs].
  - destruct Hp as [<-|[]]. apply in_app_iff. auto.
  - cbn [paths] in Hp. apply in_flat_map in Hp. destruct Hp as (t & Ht & Hp).
    eapply paths_above; eauto. apply in_app_iff. auto.
Qed.

Lemma global_in_paths t : forall above p c, c <> "" -> In p (paths above t) -> In c (get_global_filter t) -> In c p.
Proof.
  induction t as [n w cs IH] using ftree_rect'; intros above p c Hc Hp Hg.
  assert (Hown : In c (add [] w) -> In c p).
  { intros H. apply add_in in H; auto. destruct H as [[]|H]. eapply paths_own; eauto. }
  cbn [get_global_filter] in Hg. destruct (mem n ["Jackknife"; "Bootstrap"]); [auto|].
  destruct cs as [|c0 cs]; [auto|]. apply add_in in Hg; auto. destruct Hg as [Hg|Hg]; [auto|].
  cbn [paths] in Hp. apply in_flat_map in Hp. destruct Hp as (t & Ht & Hp).
  rewrite Forall_forall in IH. eapply IH; eauto. eapply inter_in; [|exact Hg]. apply in_map, Ht.
Qed.

(** Below a node with accumulated filters [above]: local = path minus global. *)
Lemma local_paths t : forall g loc above,
  (forall c, c <> "" -> (In c loc <-> In c above /\ ~ In c g)) ->
  Forall2 (fun l p => forall c, c <> "" -> (In c l <-> In c p /\ ~ In c g)) (local_filters g loc t) (paths above t).
Proof.
  induction t as [n w cs IH] using ftree_rect'; intros g loc above H. cbn [local_filters].
  set (loc' := remove (add (add [] w) loc) g).
  assert (H' : forall c, c <> "" -> (In c loc' <-> In c (above ++ w) /\ ~ In c g)).
  { intros c Hc. unfold loc'. rewrite remove_in, !add_in, in_app_iff, (H c Hc) by exact Hc. simpl. tauto. }
  destruct cs as [|c0 cs]; [repeat constructor; auto; apply H'; auto|].
  cbn [paths]. revert IH. generalize (c0 :: cs). intros l IH.
  induction IH as [|t l Ht _ IHl]; [constructor|]. cbn [flat_map]. apply Forall2_app; auto.
Qed.

Lemma sql_filters_ok t :
  Forall2 (fun gl p => same_filters (fst gl ++ snd gl) p) (sql_filters t) (paths [] t).
Proof.
  unfold sql_filters. set (g := get_global_filter t).
  assert (H := local_paths t g [] []).
  assert (H0 : forall c, c <> "" -> (In c [] <-> In c (@nil string) /\ ~ In c g)) by (simpl; tauto).
  specialize (H H0). clear H0.
  assert (G : forall p, In p (paths [] t) -> forall c, c <> "" -> In c g -> In c p).
  { intros p Hp c Hc Hg. eapply global_in_paths; eauto. }
  revert G. induction H as [|l p ls ps Hl _ IH]; intros G; [constructor|]. cbn [map]. constructor.
  - intros c Hc. cbn [fst snd]. rewrite in_app_iff, (Hl c Hc). destruct (in_dec string_dec c g) as [Y|N].
    + split; auto. intros _. apply (G p); simpl; auto.
    + tauto.
  - apply IH. intros p' Hp'. apply G. simpl. auto.
Qed.
(** The two parts do not overlap. *)
Lemma local_disjoint t : forall g loc, (forall c, In c loc -> ~ In c g) ->
  Forall (fun l => forall c, In c l -> ~ In c g) (local_filters g loc t).
Proof.
  induction t as [n w cs IH] using ftree_rect'; intros g loc H. cbn [local_filters].
  set (loc' := remove (add (add [] w) loc) g).
  assert (H' : forall c, In c loc' -> ~ In c g) by (intros c Hc; apply remove_in in Hc; tauto).
  destruct cs as [|c0 cs]; [repeat constructor; auto|].
  revert IH. generalize (c0 :: cs). intros l IH. induction IH; [constructor|]. cbn [flat_map]. apply Forall_app. auto.
Qed.
Lemma sql_filters_disjoint t : Forall (fun gl => forall c, In c (snd gl) -> ~ In c (fst gl)) (sql_filters t).
Proof.
  unfold sql_filters. pose proof (local_disjoint t (get_global_filter t) [] ltac:(simpl; tauto)) as H.
  revert H. generalize (local_filters (get_global_filter t) [] t). intros l H. induction H; constructor; auto.
Qed.

(** Rows: WHERE keeps a row and the IF does not blank it exactly if all filters of the path hold. *)
Lemma sql_rows {R} (holds : string -> R -> bool) t r : (forall r, holds "" r = true) ->
  Forall2 (fun gl p => forallb (fun c => holds c r) (fst gl) && forallb (fun c => holds c r) (snd gl) =
                       forallb (fun c => holds c r) p) (sql_filters t) (paths [] t).
Proof.
  intros H0. pose proof (sql_filters_ok t) as H. induction H as [|gl p l ps Hs _ IH]; constructor; auto.
  rewrite <- forallb_app. apply eq_true_iff_eq. rewrite !forallb_forall. split; intros H c Hc;
  (destruct (string_dec c "") as [->|N]; [apply H0|apply H, (Hs c N), Hc]).
Qed.
