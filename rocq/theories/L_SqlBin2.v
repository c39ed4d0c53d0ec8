(** A number and a query; two queries with the same source. *)
From Coq Require Import Reals List Bool String Arith Permutation Sorted Lia Lra.
From Verif Require Import M_Num M_Frame L_Frame M_Ops S_Ops L_OpsA L_OpsB L_OpsC M_SqlGlobal L_SqlGlobal M_SqlLeaf S_SqlLeaf L_SqlLeaf L_SqlLeaf2 M_SqlOps S_SqlOps L_SqlOps L_SqlOps2 L_SqlOps3 L_SqlOps4 L_SqlOps5 L_SqlOps6 L_SqlBin.
Import ListNotations.
Open Scope string_scope.
Open Scope list_scope.

Lemma well_scoped_sel cols from w g : well_scoped (SqlSel cols from w g) =
  forallb (in_source from) (flat_map (fun c => crefs (snd c)) cols ++ wrefs w ++ List.map Plain g) && scoped_src from.
Proof. reflexivity. Qed.
Lemma flat_map_pass idx : flat_map (fun c => crefs (snd c)) (pass_all idx) = List.map Plain idx.
Proof. induction idx as [|c l IH]; [reflexivity|]. cbn. now rewrite <- IH. Qed.
Lemma well_scoped_sel1 idx v x from w : well_scoped (sel1 idx v x from w) = true <->
  (forall c, In c (List.map Plain idx ++ vrefs x ++ wrefs w) -> in_source from c = true) /\ scoped_src from = true.
Proof.
  unfold sel1. rewrite well_scoped_sel, flat_map_app, flat_map_pass. cbn [flat_map snd crefs List.map]. rewrite !app_nil_r, andb_true_iff, <- app_assoc.
  split; intros [H1 H2]; (split; [|exact H2]).
  - intros c. now apply (proj1 (forallb_forall _ _)).
  - now apply forallb_forall.
Qed.
Lemma well_scoped_group idx v x from w : well_scoped (SqlSel [(v, Expr x)] from w idx) = true <->
  (forall c, In c (vrefs x ++ wrefs w ++ List.map Plain idx) -> in_source from c = true) /\ scoped_src from = true.
Proof.
  rewrite well_scoped_sel. cbn [flat_map snd crefs]. rewrite app_nil_r, andb_true_iff.
  split; intros [H1 H2]; (split; [|exact H2]).
  - intros c. now apply (proj1 (forallb_forall _ _)).
  - now apply forallb_forall.
Qed.

(** ** A number and a query *)
Definition keeps (g : vx -> vx) : Prop := forall x, aggregate (g x) = aggregate x /\ orders (g x) = orders x /\ vrefs (g x) = vrefs x.
Lemma const_leaf f g name idx l v : const_sql f g name idx (SqlLeaf l v) = SqlLeaf (Query (f (q_col l)) (q_where l) (q_by l)) name.
Proof. reflexivity. Qed.
Lemma const_sel f g name idx v x from w : ~ In v idx -> const_sql f g name idx (sel1 idx v x from w) = sel1 idx name (g x) from w.
Proof.
  intros Hv. unfold sel1, const_sql. rewrite map_app. cbn [List.map fst snd]. apply mem_false in Hv. rewrite Hv. f_equal. f_equal.
  unfold pass_all. rewrite map_map. apply map_ext_in. intros c Hc. cbn [fst]. apply mem_in in Hc. now rewrite Hc.
Qed.
Lemma const_group f g name idx v x from w : ~ In v idx -> const_sql f g name idx (SqlSel [(v, Expr x)] from w idx) = SqlSel [(name, Expr (g x))] from w idx.
Proof. intros Hv. unfold const_sql. cbn [List.map fst snd]. apply mem_false in Hv. now rewrite Hv. Qed.
Lemma const_form f g name idx v run q : keeps g -> ~ In v idx -> form idx v run q -> form idx name run (const_sql f g name idx q).
Proof.
  intros Hg Hv H. destruct H as [l E|x from w H1 H2 H3|x from w H].
  - rewrite const_leaf. apply form_leaf. exact E.
  - rewrite const_sel by exact Hv. destruct (Hg x) as (Ea & Eo & _). apply form_sel; rewrite ?Ea, ?Eo; auto.
  - rewrite const_group by exact Hv. destruct (Hg x) as (Ea & _). apply form_group. intros E. rewrite Ea. auto.
Qed.
Lemma const_scoped f g name idx v run q : keeps g -> ~ In v idx -> form idx v run q -> well_scoped q = true -> well_scoped (const_sql f g name idx q) = true.
Proof.
  intros Hg Hv H. destruct H as [l E|x from w H1 H2 H3|x from w H].
  - reflexivity.
  - rewrite const_sel by exact Hv. destruct (Hg x) as (_ & _ & Er). rewrite !well_scoped_sel1. now rewrite Er.
  - rewrite const_group by exact Hv. destruct (Hg x) as (_ & _ & Er). rewrite !well_scoped_group. now rewrite Er.
Qed.
Section Const.
  Variables (parse : string -> cond) (srt : list okey -> list env -> list env) (t : stable).
  Variables (f : sexpr -> sexpr) (g : vx -> vx) (h : option R -> option R) (H : num -> num).
  Hypothesis Hf : forall a rows, sexpr_value parse (f a) rows = h (sexpr_value parse a rows).
  Hypothesis Hgv : forall all pre e x, value all pre e (g x) = h (value all pre e x).
  Hypothesis Hg : keeps g.
  Variables (idx : list string) (v name : string) (run : bool) (q : sqlq) (F : rframe).
  Hypothesis Hform : form idx v run q.
  Hypothesis Hinv : inv parse srt t q idx v F.
  Hypothesis Hname : ~ In name idx.
  Hypothesis HF : forall k y, In (k, y) F -> unf (H y) = h (unf y) /\ no_inf (H y).

  Lemma const_rows : obs idx name (run_sql parse srt (const_sql f g name idx q) t) = List.map (fun kv => (fst kv, h (snd kv))) (obs idx v (run_sql parse srt q t)).
  Proof.
    assert (NoDup idx) as Hd by apply Hinv. assert (~ In v idx) as Hv by apply Hinv. clear Hinv HF F. destruct Hform as [l E|x from w H1 H2 H3|x from w H1].
    - rewrite const_leaf. destruct l as [col wh by_]. cbn [q_by q_col q_where] in *. subst by_. rewrite !leaf_rows by assumption. rewrite map_map. apply map_ext. intros k. cbn [fst snd]. now rewrite Hf.
    - rewrite const_sel by exact Hv. destruct (Hg x) as (Ea & Eo & _). rewrite !run_sel1 by (rewrite ?Ea; assumption). cbn zeta. rewrite Eo, map_map. apply map_ext. intros p. cbn [fst snd]. now rewrite Hgv.
    - rewrite const_group by exact Hv. destruct (Hg x) as (Ea & _). rewrite !grouped_rows; auto; try (intros E; rewrite ?Ea; now apply H1). rewrite map_map. apply map_ext. intros k. cbn [fst snd]. now rewrite Hgv.
  Qed.
  Lemma const_step : inv parse srt t (const_sql f g name idx q) idx name (List.map (fun kv => (fst kv, H (snd kv))) F).
  Proof.
    destruct Hinv as (Hsh & Hsc & Hp & Hn & Hd & Hl). pose proof Hsh as (Hdi & Hv & _).
    split; [apply (form_shape _ _ run); auto; now apply (const_form _ _ _ _ v)|]. split; [now apply (const_scoped _ _ _ _ v run)|]. split; [|split; [|split]].
    - rewrite const_rows, Hp, !map_map. erewrite map_ext_in; [apply Permutation_refl|]. intros [k y] Hy. unfold enc. cbn [fst snd]. f_equal. symmetry. now apply (HF k y).
    - apply Forall_forall. intros r Hr. apply in_map_iff in Hr as ([k y] & <- & Hr). cbn. now apply (HF k y).
    - rewrite (map_fst_snd H). exact Hd.
    - apply Forall_forall. intros r Hr. apply in_map_iff in Hr as ([k y] & <- & Hr). cbn. rewrite Forall_forall in Hl. exact (Hl _ Hr).
  Qed.
End Const.

(** what is merged *)
Inductive merged (op : op2) (name : string) (idx : list string) (v0 v1 : string) (run0 run1 : bool) (q0 q1 q : sqlq) : Prop :=
  | merged_leaf c0 c1 wh : q0 = SqlLeaf (Query c0 wh idx) v0 -> q1 = SqlLeaf (Query c1 wh idx) v1 -> q = SqlLeaf (Query (sql_op op c0 c1) wh idx) name -> merged op name idx v0 v1 run0 run1 q0 q1 q
  | merged_sel x y from w : q0 = sel1 idx v0 x from w -> q1 = sel1 idx v1 y from w -> q = sel1 idx name (vop op x y) from w ->
      aggregate x = false -> aggregate y = false -> (run0 = false -> orders x = []) -> (run1 = false -> orders y = []) -> (idx = [] -> array_source from = true) -> merged op name idx v0 v1 run0 run1 q0 q1 q
  | merged_group x y from w : q0 = SqlSel [(v0, Expr x)] from w idx -> q1 = SqlSel [(v1, Expr y)] from w idx -> q = SqlSel [(name, Expr (vop op x y))] from w idx ->
      (idx = [] -> aggregate x = true /\ aggregate y = true /\ array_source from = false) -> merged op name idx v0 v1 run0 run1 q0 q1 q.
(** ** Two queries with the same source *)
Section Merge.
  Variables (op : op2) (name : string) (idx : list string) (v0 v1 : string) (run0 run1 : bool) (q0 q1 q : sqlq).
  Hypothesis Hd : NoDup idx.
  Hypothesis H0 : form idx v0 run0 q0.
  Hypothesis H1 : form idx v1 run1 q1.
  Hypothesis Hv0 : ~ In v0 idx.
  Hypothesis Hv1 : ~ In v1 idx.
  Hypothesis Hq : merged_sql op name idx q0 q1 = Some q.

  Lemma combine_pass (l : list string) rest rest' : combine (pass_all l ++ rest) (pass_all l ++ rest') = List.map (fun c => ((c, Pass c), (c, Pass c))) l ++ combine rest rest'.
  Proof. induction l as [|c l IH]; [reflexivity|]. cbn. now rewrite <- IH. Qed.
  Lemma merge_cases : merged op name idx v0 v1 run0 run1 q0 q1 q.
  Proof.
    revert Hq. destruct H0 as [l0 E0|x from w A1 A2 A3|x from w A1]; destruct H1 as [l1 E1|y from' w' B1 B2 B3|y from' w' B1]; unfold merged_sql; intros Hq'; try discriminate; unfold sel1 in Hq'.
    - destruct (same (q_where l0) (q_where l1)) eqn:Ew; [|discriminate]. apply same_eq in Ew. destruct (same (q_by l0) (q_by l1)) eqn:Eb; [|discriminate]. injection Hq' as <-.
      destruct l0 as [c0 wh b0], l1 as [c1 wh' b1]. cbn [q_where q_by q_col] in *. subst. now apply (merged_leaf _ _ _ _ _ _ _ _ _ _ c0 c1 wh').
    - destruct (same from from') eqn:Ef; [|discriminate]. apply same_eq in Ef. destruct (same w w') eqn:Ew; [|discriminate]. apply same_eq in Ew. subst from' w'.
      rewrite same_refl in Hq'. cbn [andb] in Hq'. injection Hq' as <-. apply (merged_sel _ _ _ _ _ _ _ _ _ _ x y from w); auto. unfold sel1. f_equal. rewrite combine_pass, map_app. f_equal.
      + rewrite map_map. apply map_ext_in. intros c Hc. cbn [fst snd]. apply mem_in in Hc. now rewrite Hc.
      + cbn. apply mem_false in Hv0. now rewrite Hv0.
    - destruct (same from from') eqn:Ef; [|discriminate]. apply same_eq in Ef. destruct (same w w') eqn:Ew; [|discriminate]. apply same_eq in Ew. subst from' w'. cbn [andb] in Hq'.
      destruct (same [] idx) eqn:Ei; [|discriminate]. apply same_eq in Ei. symmetry in Ei. destruct (B1 Ei) as [_ B]. specialize (A3 Ei). congruence.
    - destruct (same from from') eqn:Ef; [|discriminate]. apply same_eq in Ef. destruct (same w w') eqn:Ew; [|discriminate]. apply same_eq in Ew. subst from' w'. cbn [andb] in Hq'.
      destruct (same idx []) eqn:Ei; [|discriminate]. apply same_eq in Ei. destruct (A1 Ei) as [_ A]. specialize (B3 Ei). congruence.
    - destruct (same from from') eqn:Ef; [|discriminate]. apply same_eq in Ef. destruct (same w w') eqn:Ew; [|discriminate]. apply same_eq in Ew. subst from' w'.
      rewrite same_refl in Hq'. cbn [andb] in Hq'. injection Hq' as <-. apply (merged_group _ _ _ _ _ _ _ _ _ _ x y from w); auto.
      + cbn. apply mem_false in Hv0. now rewrite Hv0.
      + intros E. destruct (A1 E), (B1 E). auto.
  Qed.
  Lemma merge_form : form idx name (run0 || run1) q.
  Proof.
    destruct merge_cases as [c0 c1 wh _ _ ->|x y from w _ _ -> A B C D E|x y from w _ _ -> A].
    - now apply form_leaf.
    - apply form_sel; [rewrite aggregate_vop, A, B; reflexivity| |exact E]. intros Hr. apply orb_false_iff in Hr as [R0 R1]. now rewrite orders_vop, C, D.
    - apply form_group. intros E. rewrite aggregate_vop. destruct (A E) as (-> & _ & ->). auto.
  Qed.
  Lemma merge_scoped : well_scoped q0 = true -> well_scoped q1 = true -> well_scoped q = true.
  Proof.
    destruct merge_cases as [c0 c1 wh _ _ ->|x y from w -> -> -> _ _ _ _ _|x y from w -> -> -> _].
    - reflexivity.
    - rewrite !well_scoped_sel1. intros [A S] [B _]. split; [|exact S]. intros c Hc. rewrite vrefs_vop, !in_app_iff in *. specialize (A c). specialize (B c). rewrite !in_app_iff in *. tauto.
    - rewrite !well_scoped_group. intros [A S] [B _]. split; [|exact S]. intros c Hc. rewrite vrefs_vop, !in_app_iff in *. specialize (A c). specialize (B c). rewrite !in_app_iff in *. tauto.
  Qed.

  Variables (parse : string -> cond) (srt : list okey -> list env -> list env) (t : stable) (F0 F1 : rframe).
  Hypothesis Hsrt : db_sorts srt.
  Hypothesis Hrun : run0 && run1 = false.
  Hypothesis Hname : ~ In name idx.
  Hypothesis I0 : inv parse srt t q0 idx v0 F0.
  Hypothesis I1 : inv parse srt t q1 idx v1 F1.
  Hypothesis Hdiv : op = OpDiv -> forall k, In k (List.map fst F0) -> lookup k F1 = Fin 0 -> lookup k F0 = Fin 0 \/ lookup k F0 = NaN.

  Lemma window_rows x from w o : Permutation (match orders x with [] => filter (where_pass w) (run_src parse srt from t) | o0 :: _ => srt o0 (filter (where_pass w) (run_src parse srt from t)) end)
                                             (match (o : list (list okey)) with [] => filter (where_pass w) (run_src parse srt from t) | o0 :: _ => srt o0 (filter (where_pass w) (run_src parse srt from t)) end).
  Proof. transitivity (filter (where_pass w) (run_src parse srt from t)); [destruct (orders x); [apply Permutation_refl|apply Hsrt]|destruct o; [apply Permutation_refl|apply Permutation_sym, Hsrt]]. Qed.
  Lemma merge_rows : exists (X : Type) (L : list X) (K : X -> skey) (V0 V1 : X -> option R),
    obs idx name (run_sql parse srt q t) = List.map (fun x => (K x, opS op (V0 x) (V1 x))) L /\
    Permutation (List.map (fun x => (K x, V0 x)) L) (obs idx v0 (run_sql parse srt q0 t)) /\
    Permutation (List.map (fun x => (K x, V1 x)) L) (obs idx v1 (run_sql parse srt q1 t)).
  Proof.
    destruct merge_cases as [c0 c1 wh -> -> ->|x y from w -> -> -> A B C D _|x y from w -> -> -> A].
    - rewrite !leaf_rows by assumption. exists skey, (leaf_groups parse t idx wh), (fun k => k), (fun k => sexpr_value parse c0 (M_SqlLeaf.group idx k (filter (spass parse wh) t))), (fun k => sexpr_value parse c1 (M_SqlLeaf.group idx k (filter (spass parse wh) t))). split; [|split; apply Permutation_refl]. apply map_ext. intros k. now rewrite sexpr_op.
    - rewrite !run_sel1 by (rewrite ?aggregate_vop, ?A, ?B; auto). cbn zeta. set (envs := filter (where_pass w) (run_src parse srt from t)). rewrite orders_vop.
      destruct (orders y) as [|o l] eqn:Ey.
      + rewrite app_nil_r. eexists _, _, (fun p => key_of idx (snd p)), (fun p => value envs (fst p) (snd p) x), (fun p => value envs (fst p) (snd p) y).
        split; [apply map_ext; intros p; now rewrite value_vop|]. split; [apply Permutation_refl|].
        transitivity (List.map (fun p => (fun e => (key_of idx e, value envs [] e y)) (snd p)) (prefixes [] (match orders x with [] => envs | o :: _ => srt o envs end))).
        { erewrite map_ext; [apply Permutation_refl|]. intros p. cbn beta. f_equal. now apply value_no_pre. }
        rewrite (prefixes_snd (fun e => (key_of idx e, value envs [] e y))). transitivity (List.map (fun p => (fun e => (key_of idx e, value envs [] e y)) (snd p)) (prefixes [] envs)).
        2:{ erewrite map_ext; [apply Permutation_refl|]. intros p. cbn beta. f_equal. now apply value_no_pre. }
        rewrite (prefixes_snd (fun e => (key_of idx e, value envs [] e y))). apply Permutation_map. apply (window_rows x from w []).
      + assert (orders x = []) as Ex. { apply C. destruct run0; [|reflexivity]. cbn in Hrun. specialize (D Hrun). discriminate. }
        rewrite Ex. cbn [app]. eexists _, _, (fun p => key_of idx (snd p)), (fun p => value envs (fst p) (snd p) x), (fun p => value envs (fst p) (snd p) y).
        split; [apply map_ext; intros p; now rewrite value_vop|]. split; [|apply Permutation_refl].
        transitivity (List.map (fun p => (fun e => (key_of idx e, value envs [] e x)) (snd p)) (prefixes [] (srt o envs))).
        { erewrite map_ext; [apply Permutation_refl|]. intros p. cbn beta. f_equal. now apply value_no_pre. }
        rewrite (prefixes_snd (fun e => (key_of idx e, value envs [] e x))). transitivity (List.map (fun p => (fun e => (key_of idx e, value envs [] e x)) (snd p)) (prefixes [] envs)).
        2:{ erewrite map_ext; [apply Permutation_refl|]. intros p. cbn beta. f_equal. now apply value_no_pre. }
        rewrite (prefixes_snd (fun e => (key_of idx e, value envs [] e x))). apply Permutation_map. apply Hsrt.
    - rewrite !grouped_rows; auto; try (intros E; rewrite ?aggregate_vop; destruct (A E) as (Ha & Hb & _); rewrite ?Ha, ?Hb; reflexivity).
      set (V := fun z k => value (members parse srt t idx from w k) (members parse srt t idx from w k) (group_env idx k) z). exists skey, (groups parse srt t idx from w), (fun k => k), (V x), (V y). split; [|split; apply Permutation_refl]. apply map_ext. intros k. unfold V. now rewrite value_vop.
  Qed.
  Lemma merge_step : inv parse srt t q idx name (align op F0 F1).
  Proof.
    destruct I0 as (S0 & W0 & P0 & N0 & D0 & L0). destruct I1 as (S1 & W1 & P1 & N1 & D1 & L1). destruct merge_rows as (X & L & K & V0 & V1 & E & E0 & E1).
    destruct (zip_rows L K V0 V1 op F0 F1) as (Z1 & Z2 & Z3); auto; try (etransitivity; eassumption).
    split; [apply (form_shape _ _ (run0 || run1)); auto; apply merge_form|]. split; [now apply merge_scoped|]. split; [now rewrite E|]. split; [exact Z3|]. split.
    - eapply Permutation_NoDup; [apply Permutation_sym, Z2|exact D0].
    - apply Forall_forall. intros r Hr. apply (in_map fst) in Hr. apply (Permutation_in _ Z2) in Hr. apply in_map_iff in Hr as (r' & <- & Hr). rewrite Forall_forall in L0. exact (L0 _ Hr).
  Qed.
End Merge.
