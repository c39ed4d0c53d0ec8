(** A table of sums from which the metric computes what it computes from the data. *)
From Coq Require Import Reals List Bool String Arith ZArith Permutation Sorted Lia Lra.
From Verif Require Import M_Num M_Frame L_Frame M_Leaf M_Ops S_Ops M_SqlGlobal S_SqlGlobal L_SqlGlobal M_SqlLeaf S_SqlLeaf L_SqlLeaf L_SqlLeaf2 M_SqlOps S_SqlOps L_SqlOps L_SqlOps7 M_SqlJackknife S_SqlJackknife L_SqlJack1 M_SqlJackFast.
Import ListNotations.
Open Scope string_scope.
Open Scope list_scope.

Definition sum_or_count_leaf (l : leaf) : Prop := exists c, l = Lf (LSum c) \/ l = Lf (LCount c).

(** ** The tree *)
Lemma metric_leaves_eq m : forall above, metric_leaves above m = leaves_with_filters above m.
Proof. induction m as [l w|op a IHa b IHb w|op r a IHa w|op a IHa r w|a IHa w|a IHa w]; intros above; cbn; rewrite ?IHa, ?IHb; reflexivity. Qed.
Lemma push_value name m : forall above, value_name (push_tree name above m) = value_name m.
Proof. induction m as [mm nm|over ch IH w|over how asc ch IH w|p cond base incl ch IH w|d over ch IH w|op x IHa y IHb nm w|op x ch IH nm w|op ch IH x nm w]; intros above; cbn; rewrite ?IH; reflexivity. Qed.
Lemma push_index name m : forall above, extra_idx (push_tree name above m) = extra_idx m.
Proof. induction m as [mm nm|over ch IH w|over how asc ch IH w|p cond base incl ch IH w|d over ch IH w|op x IHa y IHb nm w|op x ch IH nm w|op ch IH x nm w]; intros above; cbn; rewrite ?IH, ?IHa, ?IHb; reflexivity. Qed.
Lemma push_running name m : forall above, running (push_tree name above m) = running m.
Proof. induction m as [mm nm|over ch IH w|over how asc ch IH w|p cond base incl ch IH w|d over ch IH w|op x IHa y IHb nm w|op x ch IH nm w|op ch IH x nm w]; intros above; cbn; rewrite ?IH, ?IHa, ?IHb; reflexivity. Qed.
Lemma push_plain name m : forall above, plain_index (push_tree name above m) = plain_index m.
Proof. induction m as [mm nm|over ch IH w|over how asc ch IH w|p cond base incl ch IH w|d over ch IH w|op x IHa y IHb nm w|op x ch IH nm w|op ch IH x nm w]; intros above; cbn; rewrite ?IH, ?IHa, ?IHb; reflexivity. Qed.
Lemma push_supported name m : forall by_ above, supported_tree by_ m -> supported_tree by_ (push_tree name above m).
Proof.
  induction m as [mm nm|over ch IH w|over how asc ch IH w|p cond base incl ch IH w|d over ch IH w|op x IHa y IHb nm w|op x ch IH nm w|op ch IH x nm w]; intros by_ above; cbn [supported_tree push_tree value_name extra_idx]; rewrite ?push_value, ?push_index, ?push_running, ?push_plain; try tauto.
  - intros (H1 & H2 & H3 & H4). repeat (split; [assumption|]). now apply IH.
  - intros (H1 & H2 & H3 & H4 & H5 & H6). repeat (split; [assumption|]). now apply IH.
  - intros (H1 & H2 & H3 & H4). repeat (split; [assumption|]). now apply IH.
  - intros (H1 & H2 & (mm & nm & ->) & H4 & H5). split; [exact H1|]. split; [exact H2|]. split; [eexists _, _; reflexivity|]. split; [exact H4|]. now apply IH.
  - intros (H1 & H2 & H3 & H4). split; [assumption|]. split; [now apply IHa|]. split; [now apply IHb|]. assumption.
  - intros (H1 & H2). split; [assumption|]. now apply IH.
  - intros (H1 & H2). split; [assumption|]. now apply IH.
Qed.
Lemma push_bottoms name wh m : forall by_ above b ab lc by', In (b, ab, lc, by') (bottoms wh (push_tree name above m) by_ [] (remove (add (add [] []) []) wh)) ->
  ab = [] /\ exists b0 ab0, b = push_metric name ab0 b0 /\ forall loc, exists lc0, In (b0, ab0, lc0, by') (bottoms wh m by_ above loc).
Proof.
  assert (remove (add (add [] []) []) wh = []) as E0 by reflexivity.
  assert (remove (add (add [] []) (remove (add (add [] []) []) wh)) wh = remove (add (add [] []) []) wh) as E by reflexivity.
  induction m as [mm nm|over ch IH w|over how asc ch IH w|p cond base incl ch IH w|d over ch IH w|op x IHa y IHb nm w|op x ch IH nm w|op ch IH x nm w]; intros by_ above b ab lc by'; cbn [bottoms push_tree app]; rewrite ?E; intros H.
  - destruct H as [H|[]]. injection H as <- <- <- <-. split; [reflexivity|]. exists mm, above. split; [reflexivity|]. intros loc. exists loc. now left.
  - apply IH in H as (H1 & b0 & ab0 & H2 & H3). eauto 6.
  - apply IH in H as (H1 & b0 & ab0 & H2 & H3). eauto 6.
  - apply IH in H as (H1 & b0 & ab0 & H2 & H3). eauto 6.
  - apply IH in H as (H1 & b0 & ab0 & H2 & H3). eauto 6.
  - apply in_app_or in H as [H|H]; [apply IHa in H as (H1 & b0 & ab0 & H2 & H3)|apply IHb in H as (H1 & b0 & ab0 & H2 & H3)]; (split; [exact H1|]); exists b0, ab0; (split; [exact H2|]); intros loc; destruct (H3 (remove (add (add [] w) loc) wh)) as (lc0 & H4); exists lc0; apply in_or_app; auto.
  - apply IH in H as (H1 & b0 & ab0 & H2 & H3). eauto 6.
  - apply IH in H as (H1 & b0 & ab0 & H2 & H3). eauto 6.
Qed.
Lemma bottom_leaves wh m : forall by_ above loc b ab lc by' l fs, In (b, ab, lc, by') (bottoms wh m by_ above loc) -> In (l, fs) (leaves_with_filters ab b) -> In (l, fs) (tree_leaves above m).
Proof.
  induction m as [mm nm|over ch IH w|over how asc ch IH w|p cond base incl ch IH w|d over ch IH w|op x IHa y IHb nm w|op x ch IH nm w|op ch IH x nm w]; intros by_ above loc b ab lc by' l fs; cbn [bottoms tree_leaves]; try (apply IH).
  - intros [H|[]] Hl. injection H as <- <- <- <-. now rewrite metric_leaves_eq.
  - intros H Hl. apply in_or_app. apply in_app_or in H as [H|H]; [left; eapply IHa; eauto|right; eapply IHb; eauto].
Qed.
Lemma add_cols_in c a : forall b, In c (add_cols a b) <-> In c a \/ In c b.
Proof.
  unfold add_cols. intros b. revert a. induction b as [|d b IH]; intros a; cbn [fold_left]; [cbn [In]; tauto|]. rewrite IH. unfold mem. destruct (existsb (String.eqb d) a) eqn:E.
  - apply existsb_exists in E as (x & Hx & Ex). apply String.eqb_eq in Ex as <-. cbn. intuition (subst; auto).
  - rewrite in_app_iff. cbn. intuition (subst; auto).
Qed.
Lemma bottom_cols wh m : forall by_ above loc b ab lc by' c, In (b, ab, lc, by') (bottoms wh m by_ above loc) -> In c by' -> In c by_ \/ In c (extra_split m).
Proof.
  induction m as [mm nm|over ch IH w|over how asc ch IH w|p cond base incl ch IH w|d over ch IH w|op x IHa y IHb nm w|op x ch IH nm w|op ch IH x nm w]; intros by_ above loc b ab lc by' c; cbn [bottoms extra_split]; intros H Hc.
  - destruct H as [H|[]]. injection H as <- <- <- <-. auto.
  - rewrite in_app_iff. destruct (IH _ _ _ _ _ _ _ _ H Hc) as [H'|H']; [apply in_app_or in H' as [H'|H']; tauto|tauto].
  - rewrite in_app_iff. destruct (IH _ _ _ _ _ _ _ _ H Hc) as [H'|H']; [apply in_app_or in H' as [H'|H']; tauto|tauto].
  - rewrite in_app_iff. destruct (IH _ _ _ _ _ _ _ _ H Hc) as [H'|H']; [apply in_app_or in H' as [H'|H']; tauto|tauto].
  - rewrite in_app_iff. destruct (IH _ _ _ _ _ _ _ _ H Hc) as [H'|H']; [apply in_app_or in H' as [H'|H']; tauto|tauto].
  - rewrite add_cols_in. apply in_app_or in H as [H|H]; [destruct (IHa _ _ _ _ _ _ _ _ H Hc)|destruct (IHb _ _ _ _ _ _ _ _ H Hc)]; tauto.
  - exact (IH _ _ _ _ _ _ _ _ H Hc).
  - exact (IH _ _ _ _ _ _ _ _ H Hc).
Qed.

Section Leaf.
  Variable parse : string -> cond.
  Lemma inputs_ext fs fs' c rows : (forall r, In r rows -> spass parse fs r = spass parse fs' r) -> inputs parse (AIf fs c) rows = inputs parse (AIf fs' c) rows.
  Proof. intros H. unfold inputs. f_equal. apply map_ext_in. intros r Hr. cbn. now rewrite H. Qed.
  Lemma bottoms_loc m : forall by_ above loc b ab lc by', ~ In "" loc -> (forall r, spass parse loc r = spass parse above r) ->
    In (b, ab, lc, by') (bottoms [] m by_ above loc) -> ~ In "" ab -> ~ In "" lc /\ forall r, spass parse lc r = spass parse ab r.
  Proof.
    assert (forall m' w by_ above loc b ab lc by', ~ In "" loc -> (forall r, spass parse loc r = spass parse above r) ->
       In (b, ab, lc, by') (bottoms [] m' by_ (above ++ w) (remove (add (add [] w) loc) [])) -> ~ In "" ab ->
       ~ In "" (remove (add (add [] w) loc) []) /\ forall r, spass parse (remove (add (add [] w) loc) []) r = spass parse (above ++ w) r) as HN.
    { intros m' w by_ above loc b ab lc by' Hl He Hb Ha. apply bottoms_above in Hb. split; [intros H; apply remove_in in H as [H _]; revert H; apply add_nonempty, add_nonempty; intros []|].
      intros r. rewrite spass_step, spass_app, He; [apply andb_comm| |exact Hl|reflexivity]. intros Hw. apply Ha, Hb, in_or_app. auto. }
    induction m as [mm nm|over ch IH w|over how asc ch IH w|p cond base incl ch IH w|d over ch IH w|op x IHa y IHb nm w|op x ch IH nm w|op ch IH x nm w]; intros by_ above loc b ab lc by' Hl He Hb Ha; cbn [bottoms] in Hb.
    1: destruct Hb as [H|[]]; injection H as <- <- <- <-; auto.
    5: apply in_app_or in Hb as [Hb|Hb].
    all: destruct (HN _ _ _ _ _ _ _ _ _ Hl He Hb Ha) as [N1 N2].
    all: first [exact (IH _ _ _ _ _ _ _ N1 N2 Hb Ha) | exact (IHa _ _ _ _ _ _ _ N1 N2 Hb Ha) | exact (IHb _ _ _ _ _ _ _ N1 N2 Hb Ha)].
  Qed.

  (** ** One group *)
  Variable name : leaf -> list string -> string.
  Lemma push_fits m : forall above loc rows rows', ~ In "" loc -> (forall r, spass parse loc r = spass parse above r) ->
    (forall l fs, In (l, fs) (leaves_with_filters above m) -> sum_or_count_leaf l /\ ~ In "" fs /\
       forall v, leaf_column parse l fs rows = Some v -> sum_of parse (name l fs) rows' = Some v) ->
    fits parse (sql_column [] loc m) rows ->
    fits parse (sql_column [] [] (push_metric name above m)) rows' /\
    sexpr_value parse (sql_column [] [] (push_metric name above m)) rows' = sexpr_value parse (sql_column [] loc m) rows /\
    forall l fs, In (l, fs) (leaves_with_filters above m) -> exists v, leaf_column parse l fs rows = Some v.
  Proof.
    assert (forall m0 w loc above, (forall l p, In (l, p) (leaves_with_filters (above ++ w) m0) -> ~ In "" p) -> ~ In "" loc ->
        (forall r, spass parse loc r = spass parse above r) ->
        ~ In "" (remove (add (add [] w) loc) []) /\ forall r, spass parse (remove (add (add [] w) loc) []) r = spass parse (above ++ w) r) as HN.
    { intros m0 w loc above Hp Hl He. destruct (some_leaf m0 (above ++ w)) as (l & p & H1 & H2).
      assert (~ In "" w) as Nw by (intros H; apply (Hp l p H1), H2, in_or_app; auto).
      split; [intros H; apply remove_in in H as [H _]; revert H; apply add_nonempty, add_nonempty; intros []|].
      intros r. rewrite spass_step, spass_app, He; auto. apply andb_comm. }
    assert (remove (add (add [] []) []) [] = []) as E0 by reflexivity.
    induction m as [l w|op a IHa b IHb w|op x a IHa w|op a IHa x w|a IHa w|a IHa w]; intros above loc rows rows' Hl He H Hf; cbn [leaves_with_filters] in H |- *; cbn [sql_column push_metric] in *; rewrite ?E0.
    - destruct (H l _ (or_introl eq_refl)) as ((c & Hc) & Hn & Hv). set (fl := remove (add (add [] w) loc) []) in *.
      assert (forall r, In r rows -> spass parse fl r = spass parse (above ++ w) r) as He'.
      { intros r _. unfold fl. rewrite spass_step, spass_app, He; auto; [apply andb_comm|]. intros Hw. apply Hn, in_or_app. auto. }
      pose proof (inputs_ext fl (above ++ w) c rows He') as EI.
      assert (exists v, leaf_column parse l (above ++ w) rows = Some v /\ sexpr_value parse (sql_leaf l fl) rows = Some v) as (v & E1 & E2).
      { destruct Hc as [-> | ->]; cbn [leaf_column sql_leaf sql_columns sexpr_value sagg_value] in *; rewrite EI.
        - cbn [fits] in Hf. destruct Hf as (r & Hr & Hx). unfold unless_fewer. destruct (Nat.ltb _ 1) eqn:El; [|eauto]. exfalso. apply Nat.ltb_lt in El.
          rewrite <- EI in El. unfold inputs in El. destruct (sarg parse (AIf fl c) r) as [y|] eqn:Ey; [|congruence].
          assert (In y (nonnull (List.map (sarg parse (AIf fl c)) rows))) as Hi.
          { clear - Hr Ey. induction rows as [|r0 rows IH]; [destruct Hr|]. cbn [List.map nonnull]. destruct Hr as [->|Hr]; [rewrite Ey; now left|]. destruct (sarg parse (AIf fl c) r0); [right|]; auto. }
          destruct (nonnull _); [destruct Hi|cbn in El; lia].
        - eauto. }
      split; [|split].
      + specialize (Hv v E1). unfold sum_of in Hv. cbn [sagg_value] in Hv. cbn [sql_leaf sql_columns fits]. unfold inputs in Hv.
        assert (nonnull (List.map (sarg parse (AIf [] (Col (name l (above ++ w))))) rows') <> []) as Hne by (intros E; rewrite E in Hv; discriminate).
        clear - Hne. induction rows' as [|r0 rows' IH]; [now cbn in Hne|]. destruct (sarg parse (AIf [] (Col (name l (above ++ w)))) r0) as [y|] eqn:Ey; [exists r0; split; [now left|]; rewrite Ey; discriminate|].
        destruct IH as (r & Hr & Hx); [intros E; apply Hne; cbn [List.map nonnull]; now rewrite Ey|]. exists r. split; [now right|exact Hx].
      + rewrite E2. exact (Hv v E1).
      + intros l0 fs [E|[]]. injection E as <- <-. eauto.
    - destruct (HN a w loc above) as [N1 N2]; auto; [intros l p Hp; apply (H l p), in_or_app; auto|].
      assert (fits parse (sql_column [] (remove (add (add [] w) loc) []) a) rows /\ fits parse (sql_column [] (remove (add (add [] w) loc) []) b) rows) as [Fa Fb] by (destruct op; cbn in Hf; tauto).
      destruct (IHa _ _ rows rows' N1 N2 (fun l p Hp => H l p (in_or_app _ _ _ (or_introl Hp))) Fa) as (A1 & A2 & A3).
      destruct (IHb _ _ rows rows' N1 N2 (fun l p Hp => H l p (in_or_app _ _ _ (or_intror Hp))) Fb) as (B1 & B2 & B3).
      split; [|split; [|intros l fs Hi; apply in_app_or in Hi as [Hi|Hi]; eauto]]; destruct op; cbn [sql_op fits sexpr_value] in *; rewrite ?A2, ?B2; tauto.
    - destruct (HN a w loc above) as [N1 N2]; auto; [intros l p Hp; apply (H l p); auto|].
      assert (fits parse (sql_column [] (remove (add (add [] w) loc) []) a) rows) as Fa by (destruct op; cbn in Hf; tauto).
      destruct (IHa _ _ rows rows' N1 N2 H Fa) as (A1 & A2 & A3).
      split; [|split; [|exact A3]]; destruct op; cbn [sql_op fits sexpr_value] in *; rewrite ?A2; tauto.
    - destruct (HN a w loc above) as [N1 N2]; auto; [intros l p Hp; apply (H l p); auto|].
      assert (fits parse (sql_column [] (remove (add (add [] w) loc) []) a) rows) as Fa by (destruct op; cbn in Hf; tauto).
      destruct (IHa _ _ rows rows' N1 N2 H Fa) as (A1 & A2 & A3).
      split; [|split; [|exact A3]]; destruct op; cbn [sql_op fits sexpr_value] in *; rewrite ?A2; tauto.
    - destruct (HN a w loc above) as [N1 N2]; auto; [intros l p Hp; apply (H l p); auto|]. cbn [fits sexpr_value] in *.
      destruct (IHa _ _ rows rows' N1 N2 H Hf) as (A1 & A2 & A3). rewrite A2. auto.
    - destruct (HN a w loc above) as [N1 N2]; auto; [intros l p Hp; apply (H l p); auto|]. cbn [fits sexpr_value] in *.
      destruct (IHa _ _ rows rows' N1 N2 H Hf) as (A1 & A2 & A3). rewrite A2. auto.
  Qed.
End Leaf.
