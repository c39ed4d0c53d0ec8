(** The fast Jackknife query. *)
From Coq Require Import Reals List Bool String Arith ZArith Permutation Sorted Lia Lra.
From Verif Require Import M_Num M_Frame L_Frame M_Leaf M_Ops S_Ops L_OpsA L_OpsB M_SqlGlobal S_SqlGlobal L_SqlGlobal M_SqlLeaf S_SqlLeaf L_SqlLeaf L_SqlLeaf2 M_SqlOps S_SqlOps L_SqlOps L_SqlOps7 M_Jackknife M_SqlJackknife S_SqlJackknife L_SqlJack1 L_SqlJack4 L_SqlJack5 L_SqlJack7 M_SqlJackFast S_SqlJackFast L_SqlSummary L_SqlSummary2 L_SqlLoo1 L_SqlLoo2 L_SqlLoo3.
Import ListNotations.
Open Scope string_scope.
Open Scope list_scope.

Lemma split_bottom wh m : forall by_ ab lc c, In c (extra_split m) -> exists b fs l e', In (b, fs, l, by_ ++ e') (bottoms wh m by_ ab lc) /\ In c e'.
Proof.
  assert (forall m over by_ ab lc c, (forall by_ ab lc c, In c (extra_split m) -> exists b fs l e', In (b, fs, l, by_ ++ e') (bottoms wh m by_ ab lc) /\ In c e') -> In c (over ++ extra_split m) ->
     exists b fs l e', In (b, fs, l, by_ ++ e') (bottoms wh m (by_ ++ over) ab lc) /\ In c e') as HO.
  { intros m0 over by_ ab lc c IH Hc. apply in_app_or in Hc as [Hc|Hc].
    - destruct (bottom_exists wh m0 (by_ ++ over) ab lc) as (b & fs & l & e' & H). exists b, fs, l, (over ++ e'). rewrite app_assoc. split; [exact H|]. apply in_or_app. auto.
    - destruct (IH (by_ ++ over) ab lc c Hc) as (b & fs & l & e' & H & Hc'). exists b, fs, l, (over ++ e'). rewrite app_assoc. split; [exact H|]. apply in_or_app. auto. }
  induction m as [mm nm|over ch IH w|over how asc ch IH w|p over base incl ch IH w|d over ch IH w|op x IHa y IHb nm w|op x ch IH nm w|op ch IH x nm w]; intros by_ ab lc c; cbn [bottoms extra_split]; intros Hc; try (apply HO; auto; fail); try (now apply IH).
  - destruct Hc.
  - apply add_cols_in in Hc as [Hc|Hc].
    + destruct (IHa by_ (ab ++ w) (remove (add (add [] w) lc) wh) c Hc) as (b & fs & l & e' & H & Hc'). exists b, fs, l, e'. split; [apply in_or_app; auto|exact Hc'].
    + destruct (IHb by_ (ab ++ w) (remove (add (add [] w) lc) wh) c Hc) as (b & fs & l & e' & H & Hc'). exists b, fs, l, e'. split; [apply in_or_app; auto|exact Hc'].
Qed.

Section Fast.
  Variables (parse : string -> cond) (srt : list okey -> list env -> list env) (psort : cum_how -> bool -> nat -> rframe -> rframe).
  Variables (pre loo : leaf -> list string -> string) (where_ : list string) (unit : string) (m : otree) (s : list string) (t0 : stable).
  Hypothesis Hdb : db_sorts srt.
  Hypothesis Hps : pandas_sorts psort.
  Hypothesis Hparse : forall f, ~ In resample_idx (cond_labels (parse f)).
  Hypothesis Hsup : supported_tree (s ++ [resample_idx]) m.
  Hypothesis Hse : ~ In (se_name (value_name m)) (s ++ extra_idx m).
  Hypothesis Hwhere : forall f r, In f where_ -> In r t0 -> same_verdict (parse f) r.
  Notation t := (filter (spass parse where_) t0).
  Hypothesis Hunit : forall r, In r t -> slab r unit <> None.
  Hypothesis Hpoint : child_fits parse psort m s t.
  Hypothesis Hparts : forall k x, unit_in s unit k x t -> left_out s unit k x t <> [] ->
    child_fits parse psort m [] (left_out s unit k x t) /\ every_leaf_has_rows parse m (left_out s unit k x t).
  Hypothesis Hex : exists k x, unit_in s unit k x t /\ left_out s unit k x t <> [].
  Hypothesis Hkind : sums_only m.
  Hypothesis Hpre : own_columns pre m.
  Hypothesis Hloo : own_columns loo m.
  Hypothesis Hct : forall l fs, In (l, fs) (tree_leaves [] m) -> pre l fs <> "ct".
  Hypothesis Hunits : ~ In unit (s ++ extra_split m).
  Hypothesis Hfull : needs_adjustment m = false -> complete_units s unit m t.
  Notation v := (value_name m).
  Notation idx := (s ++ extra_idx m).

  Lemma idx_free : ~ In resample_idx (s ++ extra_split m).
  Proof.
    intros H. apply in_app_or in H as [H|H]; [now apply (idx_fresh m s Hsup)|]. destruct (split_bottom [] m (s ++ [resample_idx]) [] [] _ H) as (b & fs & l & e' & Hb & Hi). pose proof (bottoms_nodup _ _ _ _ _ _ _ _ _ Hsup Hb) as Hnd.
    rewrite <- app_assoc in Hnd. apply NoDup_remove_2 in Hnd. apply Hnd, in_or_app. now right.
  Qed.
  Lemma all_labels r c : In r t -> In c ((s ++ extra_split m) ++ [unit]) -> slab r c <> None.
  Proof.
    intros Hr Hc. apply in_app_or in Hc as [Hc|[<-|[]]]; [|now apply Hunit]. destruct Hpoint as [Hf _]. apply in_app_or in Hc as [Hc|Hc].
    - destruct (bottom_exists [] m s [] []) as (b & fs & l & e' & H). destruct (Hf _ _ _ _ H) as (_ & H2 & _). apply (H2 r c Hr); [reflexivity|]. apply in_or_app. auto.
    - destruct (split_bottom [] m s [] [] c Hc) as (b & fs & l & e' & H & Hi). destruct (Hf _ _ _ _ H) as (_ & H2 & _). apply (H2 r c Hr); [reflexivity|]. apply in_or_app. auto.
  Qed.
  Lemma full_sums : needs_adjustment m = false -> forall k x r l fs, unit_in s unit k x t -> In r t -> srow_key s r = List.map Some k -> In (l, fs) (tree_leaves [] m) ->
    exists r', In r' t /\ srow_key (s ++ extra_split m) r' = srow_key (s ++ extra_split m) r /\ slab r' unit = Some x /\ forall c, l = Lf (LSum c) -> sarg parse (AIf fs c) r' <> None.
  Proof.
    intros Hn k x r l fs Hu Hr Ek Hl. destruct (Hfull Hn k x r l fs Hu Hr Ek Hl) as (r' & H1 & H2 & H3 & H4). exists r'. repeat (split; [assumption|]). intros c Hc.
    assert (fs = []) as ->; [|now apply H4]. unfold needs_adjustment in Hn. apply orb_false_iff in Hn as [Hn _]. destruct fs as [|f fs]; [reflexivity|]. exfalso.
    assert (existsb (fun lf : leaf * list string => match snd lf with [] => false | _ => true end) (tree_leaves [] m) = true) as E; [|rewrite E in Hn; discriminate]. apply existsb_exists. exists (l, f :: fs). auto.
  Qed.
  Theorem fast_same : exists F, jackknife_pandas parse psort where_ unit m s (pandas_table t0) = Some F /\
    jk_same_rows (jk_shown idx v (jackknife_sql_fast parse srt pre loo where_ unit m s t0)) F /\
    (~ In (dof_name v) idx -> forall ppf confidence, jk_same_bounds ppf confidence (jk_bounds ppf confidence idx v (jackknife_sql_fast parse srt pre loo where_ unit m s t0)) F).
  Proof.
    pose proof (split_labels parse psort where_ m s t0 Hpoint) as Hlab.
    assert (t <> []) as Hne by (destruct Hex as (k & x & (r & Hr & _) & _); intros E; rewrite E in Hr; destruct Hr).
    destruct (jk_whole parse psort m s unit t Hps Hparse Hsup Hunit Hlab Hparts Hex) as (R & ER & _ & _ & HtR).
    assert (jk_general s unit t <> []) as HJ.
    { destruct Hex as (k & x & Hu & Hl). destruct (left_out s unit k x t) as [|r l] eqn:E; [congruence|]. pose proof (jk_group s unit t (idx_fresh m s Hsup) Hunit k x Hu) as Hg. rewrite E in Hg. intros E0. rewrite E0 in Hg. discriminate. }
    assert (inv parse srt (loo_table (needs_adjustment m) pre loo (tree_leaves [] m) s (s ++ extra_split m) unit (unit_slice parse ((s ++ extra_split m) ++ [unit]) (preagg parse pre (tree_leaves [] m) ((s ++ extra_split m) ++ [unit]) t))
         (total_count parse (s ++ extra_split m) (unit_slice parse ((s ++ extra_split m) ++ [unit]) (preagg parse pre (tree_leaves [] m) ((s ++ extra_split m) ++ [unit]) t)))) (samples_sql (push_tree loo [] m) s) ((s ++ [resample_idx]) ++ extra_idx m) v R) as HR.
    { unfold samples_sql. rewrite push_index. replace (s ++ resample_idx :: extra_idx m) with ((s ++ [resample_idx]) ++ extra_idx m) by (now rewrite <- app_assoc).
      apply (summary_query parse psort loo srt Hdb Hps m (s ++ [resample_idx]) (jk_general s unit t)); auto.
      - exact (jk_bottoms parse psort m s unit t Hparse Hsup Hunit Hlab Hparts Hex).
      - intros by' Hby. exact (LOO_summary parse pre loo s (extra_split m) unit t (tree_leaves [] m) Hparse idx_free Hne all_labels Hkind Hpre Hloo Hct Hunits (needs_adjustment m) full_sums by' Hby). }
    destruct (tree_step parse srt psort t Hdb Hps [] m s [] []) as (P & EP & _ & _); [exact (proj1 Hpoint)|exact (sup_s m s Hsup)|apply placed_nil|rewrite no_filters; exact (proj2 Hpoint)|]. rewrite no_filters in EP.
    assert (inv parse srt (preagg parse pre (tree_leaves [] m) ((s ++ extra_split m) ++ [unit]) t) (point_sql (push_tree pre [] m) s) idx v P) as HP.
    { unfold point_sql. rewrite push_index. apply (summary_query parse psort pre srt Hdb Hps m s t); auto.
      - exact (sup_s m s Hsup).
      - exact (proj1 Hpoint).
      - exact (proj2 Hpoint).
      - intros by' Hby. exact (D_summary parse pre s (extra_split m) unit t (tree_leaves [] m) Hne all_labels Hkind Hpre by' Hby). }
    exact (same_gen parse srt psort where_ unit m s t0 Hps Hparse Hsup Hse Hwhere Hunit Hpoint Hparts Hex _ _ _ _ R P ER HR EP HP).
  Qed.
End Fast.
