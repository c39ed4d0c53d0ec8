(** The generated query is well formed, whatever the data. *)
From Coq Require Import Reals List Bool String Arith Lia.
From Verif Require Import M_Num M_Frame L_Frame M_Ops S_Ops M_SqlGlobal L_SqlGlobal M_SqlLeaf M_SqlOps S_SqlOps L_SqlOps L_SqlOps2 L_OpsA L_OpsB L_OpsC L_SqlOps3 L_SqlOps4 L_SqlOps5 L_SqlOps6 L_SqlBin L_SqlBin2 L_SqlBin3.
Import ListNotations.
Open Scope string_scope.
Open Scope list_scope.

Lemma NoDup_head {A} (a b : list A) : NoDup (a ++ b) -> NoDup a.
Proof. induction a as [|x a IH]; intros H; [constructor|]. cbn in H. inversion H; subst. constructor; [|auto]. intros Hx. apply H2, in_or_app. auto. Qed.
Lemma nodup_index m : forall by_, supported_tree by_ m -> NoDup (by_ ++ extra_idx m).
Proof.
  induction m as [m name|over c IH w|over how asc c IH w|p cond base incl c IH w|d over c IH w|op a IHa b IHb name w|op x c IH name w|op c IH x name w]; intros by_ H; cbn [supported_tree extra_idx] in *.
  - rewrite app_nil_r. apply H.
  - destruct H as (_ & _ & _ & H). rewrite app_assoc. now apply IH.
  - destruct H as (_ & _ & _ & _ & _ & H). rewrite app_assoc. now apply IH.
  - destruct H as (_ & _ & _ & H). rewrite app_assoc. now apply IH.
  - destruct H as (_ & _ & (m & name & ->) & _ & H). cbn [extra_idx]. rewrite app_nil_r. apply IH in H. cbn [extra_idx] in H. rewrite app_nil_r in H. now apply NoDup_head in H.
  - destruct H as (_ & Ha & Hb & _). destruct (Nat.ltb _ _); auto.
  - destruct H as (_ & H). auto.
  - destruct H as (_ & H). auto.
Qed.
Lemma supported_nodup m by_ : supported_tree by_ m -> NoDup by_.
Proof. intros H. apply nodup_index in H. now apply NoDup_head in H. Qed.

Definition ok (q : sqlq) (idx : list string) (v : string) : Prop := shape q idx v /\ well_scoped q = true.

Lemma ok_sel1 idx v x from w : NoDup idx -> ~ In v idx -> (forall c, In c idx -> in_source from (Plain c) = true) ->
  (forall r, In r (vrefs x) -> in_source from r = true) -> (forall r, In r (wrefs w) -> in_source from r = true) ->
  scoped_src from = true -> ok (sel1 idx v x from w) idx v.
Proof. intros. split; [now apply shape_sel1|now apply scoped_sel1]. Qed.
Lemma ok_from q idx v : ok q idx v -> forall c, In c idx \/ c = v -> in_source (From q) (Plain c) = true.
Proof. intros [H _] c Hc. apply (in_from q idx v _ H), in_or_app. destruct Hc as [Hc| ->]; [auto|right; now left]. Qed.

Lemma dist_ok prefix by_ over v c : ok c (by_ ++ over) v -> ~ In (String.append prefix v) (by_ ++ over) ->
  ok (distribution_sql prefix by_ over c) (by_ ++ over) (String.append prefix v).
Proof.
  intros H Hv. pose proof (ok_from _ _ _ H) as Hin. destruct H as [Hsh Hsc].
  assert (NoDup (by_ ++ over)) as Hnd by apply Hsh.
  assert (distribution_sql prefix by_ over c = sel1 (by_ ++ over) (String.append prefix v) (VDiv (VRef (Plain v)) (VSumOver v by_)) (From c) None) as ->.
  { unfold distribution_sql. rewrite add_cols_app by assumption. now rewrite (shape_vals c _ v Hsh). }
  apply ok_sel1; auto; try (intros r []; fail). cbn [vrefs app]. intros r [<-|[<-|Hr]]; auto.
  apply in_map_iff in Hr as [b [<- Hb]]. apply Hin. left. apply in_or_app. auto.
Qed.
Lemma cum_ok by_ over how asc v dist : ok dist (by_ ++ over) v -> ~ In (String.append "Cumulative " v) (by_ ++ over) ->
  ok (cumulative_sql by_ (by_ ++ over) over how asc dist) (by_ ++ over) (String.append "Cumulative " v).
Proof.
  intros H Hv. pose proof (ok_from _ _ _ H) as Hin. destruct H as [Hsh Hsc].
  assert (NoDup (by_ ++ over)) as Hnd by apply Hsh.
  assert (cumulative_sql by_ (by_ ++ over) over how asc dist =
          sel1 (by_ ++ over) (String.append "Cumulative " v) (VCumOver v by_ (window_order how asc over v)) (From dist) None) as ->.
  { unfold cumulative_sql. rewrite (shape_vals dist _ v Hsh). cbn [List.map]. unfold sel1, window_order. destruct how; reflexivity. }
  apply ok_sel1; auto; try (intros r []; fail). cbn [vrefs]. intros r [<-|Hr]; [auto|]. apply in_app_or in Hr as [Hr|Hr]; apply in_map_iff in Hr as [c [<- Hc]].
  - apply Hin. left. apply in_or_app. auto.
  - assert (in_source (From dist) (Plain (match c with KCol c0 _ | KCase c0 _ _ => c0 end)) = true) as Hc'; [|destruct c; exact Hc'].
    destruct how; cbn in Hc; try (apply in_map_iff in Hc as [c' [<- Hc]]; cbn [ordered_col]; apply Hin; left; apply in_or_app; auto).
    destruct Hc as [<-|[]]. apply Hin. auto.
Qed.
Lemma change_ok (percent : bool) (by_ cond base rest : list string) (incl : bool) (v : string) (raw : sqlq) :
  let idx := by_ ++ cond ++ rest in let v' := String.append v (if percent then " Percent Change" else " Absolute Change") in
  ok raw idx v -> ~ In v' idx -> ok (change_sql percent cond base incl idx raw) idx v'.
Proof.
  intros idx v' [Hsh Hsc] Hv'. pose proof Hsh as (Hnd & Hv & _). set (us := by_ ++ rest).
  set (base_value := SqlSel (pass_all (us ++ [v])) (From raw) (Some (WEq (combine cond base))) []).
  assert (change_sql percent cond base incl idx raw =
      sel1 idx v' (change_expr percent v v) (Join "ChangeRaw" raw "ChangeBase" base_value us) (if incl then None else Some (WNot (combine cond base)))) as ->.
  { unfold change_sql. rewrite (shape_add _ _ _ Hsh), (shape_all _ _ _ Hsh).
    assert (difference (idx ++ [v]) cond = us ++ [v]) as ->.
    { unfold idx. rewrite <- !app_assoc. rewrite difference_split; [unfold us; now rewrite <- app_assoc|].
      pose proof (NoDup_snoc _ _ Hnd Hv) as H. unfold idx in H. rewrite <- !app_assoc in H. exact H. }
    assert (difference idx cond = us) as -> by (unfold idx; now rewrite difference_split).
    rewrite !last_values_one. reflexivity. }
  assert (forall c, In c idx -> In c (all_columns raw)) as Hin by (intros c Hc; rewrite (shape_all _ _ _ Hsh); apply in_or_app; auto).
  assert (all_columns base_value = us ++ [v]) as Eb. { unfold all_columns, base_value. cbn. unfold pass_all. rewrite map_map. cbn. rewrite map_id. now apply filter_all. }
  assert (forall c, In c us -> In c idx) as Hus. { intros c Hc. unfold us in Hc. apply in_app_or in Hc. apply in_or_app. destruct Hc; [auto|right; apply in_or_app; auto]. }
  assert (forall c, In c cond -> In c idx) as Hco by (intros c Hc; apply in_or_app; right; apply in_or_app; auto).
  apply ok_sel1; auto.
  - intros c Hc. cbn. rewrite (proj2 (mem_in c _) (Hin c Hc)). reflexivity.
  - assert (in_source (Join "ChangeRaw" raw "ChangeBase" base_value us) (Of "ChangeRaw" v) = true) as E1.
    { cbn [in_source]. rewrite (shape_all _ _ _ Hsh). rewrite String.eqb_refl. rewrite (proj2 (mem_in v (idx ++ [v]))); [reflexivity|apply in_or_app; right; now left]. }
    assert (in_source (Join "ChangeRaw" raw "ChangeBase" base_value us) (Of "ChangeBase" v) = true) as E2.
    { cbn [in_source]. rewrite Eb. rewrite (proj2 (mem_in v (us ++ [v]))); [reflexivity|apply in_or_app; right; now left]. }
    unfold change_expr. intros r Hr. destruct percent; cbn in Hr; repeat (destruct Hr as [<-|Hr]; [assumption|]); destruct Hr.
  - intros r Hr. destruct incl; [destruct Hr|]. cbn in Hr. apply in_map_iff in Hr as [[c b'] [<- Hc]]. apply in_combine_l in Hc. cbn.
    rewrite (proj2 (mem_in c _) (Hin c (Hco c Hc))). reflexivity.
  - cbn [scoped_src]. rewrite Hsc. cbn [andb]. apply andb_true_intro. split.
    + unfold base_value. cbn [well_scoped scoped_src]. rewrite Hsc, andb_true_r. apply forallb_forall. intros r Hr. rewrite !in_app_iff in Hr. cbn in Hr.
      destruct Hr as [Hr|[Hr|[]]].
      * apply in_flat_map in Hr as [p [Hp1 Hr]]. unfold pass_all in Hp1. apply in_map_iff in Hp1 as [c [<- Hc]]. cbn in Hr. destruct Hr as [<-|[]]. cbn.
        apply mem_in. apply in_app_or in Hc as [Hc|[<-|[]]]; [auto|]. rewrite (shape_all _ _ _ Hsh). apply in_or_app. right. now left.
      * apply in_map_iff in Hr as [[c b'] [<- Hc]]. apply in_combine_l in Hc. cbn. apply mem_in. auto.
    + apply forallb_forall. intros c Hc. rewrite Eb. rewrite (proj2 (mem_in c _) (Hin c (Hus c Hc))), (proj2 (mem_in c (us ++ [v]))) by (apply in_or_app; auto). reflexivity.
Qed.
Lemma ok_group q idx v by_ name x : ok q idx v -> incl by_ idx -> NoDup by_ -> ~ In name by_ ->
  (forall r, In r (crefs x) -> r = Plain v) -> ok (SqlSel [(name, x)] (From q) None by_) by_ name.
Proof.
  intros H Hi Hd Hn Hx. pose proof (ok_from _ _ _ H) as Hin. destruct H as [Hsh Hsc]. split.
  - split; [exact Hd|]. split; [exact Hn|]. left. split; reflexivity.
  - cbn [well_scoped scoped_src]. rewrite Hsc, andb_true_r. apply forallb_forall. intros r Hr. cbn in Hr. rewrite app_nil_r in Hr.
    apply in_app_or in Hr as [Hr|Hr]; [rewrite (Hx r Hr); auto|]. apply in_map_iff in Hr as [b [<- Hb]]. apply Hin. auto.
Qed.
Lemma div_ok d by_ over v c : ok c (by_ ++ over) v -> ~ In (div_name d v) by_ -> ~ In (String.append "Cumulative " v) by_ ->
  ok (diversity_sql d by_ over by_ (distribution_sql "" by_ over c)) by_ (div_name d v).
Proof.
  intros H Hname Hcv. assert (~ In v (by_ ++ over)) as Hv by apply H. assert (NoDup (by_ ++ over)) as Hnd by apply H.
  assert (NoDup by_) as Hd by (now apply NoDup_head in Hnd). assert (incl by_ (by_ ++ over)) as Hi by (intros x Hx; apply in_or_app; auto).
  pose proof (dist_ok "" by_ over v c H Hv) as HD. change (String.append "" v) with v in HD. set (dist := distribution_sql "" by_ over c) in *.
  assert (~ In v by_) as Hv1 by auto. unfold diversity_sql. rewrite add_cols_app by assumption. rewrite (shape_vals dist _ v) by apply HD. cbn [List.map].
  destruct d as [| |k|share].
  - apply (ok_group dist (by_ ++ over) v); auto. intros r [<-|[]]. reflexivity.
  - apply (ok_group dist (by_ ++ over) v); auto. intros r [<-|[<-|[]]]; reflexivity.
  - assert (ok (SqlSel [(v, TopArray v k)] (From dist) None by_) by_ v) as HA by (apply (ok_group dist (by_ ++ over) v); auto; intros r [<-|[]]; reflexivity).
    pose proof (ok_from _ _ _ HA) as Hin. destruct HA as [_ HA].
    apply (ok_sel1 by_ (div_name (TopK k) v) (VSumArr v)); auto; intros r []; subst; auto.
  - pose proof (ok_from _ _ _ HD) as Hin. destruct HD as [_ HD].
    assert (ok (sel1 by_ (String.append "Cumulative " v) (VCumOver v by_ [KCol v true]) (From dist) None) by_ (String.append "Cumulative " v)) as HA.
    { apply ok_sel1; auto; try (intros r []; fail). cbn [vrefs]. intros r [<-|Hr]; [auto|]. apply in_app_or in Hr as [Hr|Hr].
      - apply in_map_iff in Hr as [b [<- Hb]]. auto.
      - destruct Hr as [<-|[]]. auto. }
    apply (ok_group _ by_ (String.append "Cumulative " v)); auto; [intros x; auto|]. intros r [<-|[]]. reflexivity.
Qed.

(** the index columns of two metrics *)
Lemma wider_app by_ a b : wider (by_ ++ a) (by_ ++ b) = by_ ++ (if Nat.ltb (List.length a) (List.length b) then b else a).
Proof.
  unfold wider. rewrite !app_length. destruct (Nat.ltb (List.length a) (List.length b)) eqn:E.
  - apply Nat.ltb_lt in E. now rewrite (proj2 (Nat.ltb_lt _ _)) by lia.
  - apply Nat.ltb_ge in E. now rewrite (proj2 (Nat.ltb_ge _ _)) by lia.
Qed.
Lemma nested_app by_ op a b name w : supported_tree by_ (OBin op a b name w) -> nested (by_ ++ extra_idx a) (by_ ++ extra_idx b).
Proof.
  cbn [supported_tree]. intros (_ & _ & _ & _ & _ & _ & [E|[(Hi & Hl & _)|(Hi & Hl & _)]]).
  - left. now rewrite E.
  - right. left. rewrite !app_length. split; [|lia]. intros x Hx. apply in_app_or in Hx. apply in_or_app. destruct Hx; auto.
  - right. right. rewrite !app_length. split; [|lia]. intros x Hx. apply in_app_or in Hx. apply in_or_app. destruct Hx; auto.
Qed.
Lemma plain_tree glob m : plain_index m -> forall loc by_ i j, tree_sql glob loc i by_ m = tree_sql glob loc j by_ m.
Proof.
  induction m as [m name|over c IH w|over how asc c IH w|p cond base incl c IH w|d over c IH w|op a IHa b IHb name w|op x c IH name w|op c IH x name w]; cbn [plain_index]; try contradiction; intros H loc by_ i j; cbn [tree_sql].
  - reflexivity.
  - now rewrite (IH H _ _ i j).
Qed.
(** both are generated with their own index columns *)
Lemma own_index glob loc by_ op a b name w : supported_tree by_ (OBin op a b name w) -> let idx := by_ ++ extra_idx (OBin op a b name w) in
  tree_sql glob loc idx by_ a = tree_sql glob loc (by_ ++ extra_idx a) by_ a /\ tree_sql glob loc idx by_ b = tree_sql glob loc (by_ ++ extra_idx b) by_ b.
Proof.
  cbn [supported_tree extra_idx]. intros (_ & _ & _ & _ & _ & _ & [E|[(Hi & Hl & Hp)|(Hi & Hl & Hp)]]).
  - rewrite E, Nat.ltb_irrefl. auto.
  - apply Nat.ltb_lt in Hl. rewrite Hl. split; [now apply plain_tree|reflexivity].
  - assert (Nat.ltb (List.length (extra_idx a)) (List.length (extra_idx b)) = false) as -> by (apply Nat.ltb_ge; lia). split; [reflexivity|now apply plain_tree].
Qed.
Lemma fresh_values by_ op a b name w : supported_tree by_ (OBin op a b name w) ->
  ~ In (value_name a) (by_ ++ extra_idx (OBin op a b name w)) /\ ~ In (value_name b) (by_ ++ extra_idx (OBin op a b name w)).
Proof.
  cbn [supported_tree extra_idx]. intros (_ & Ha & Hb & _ & H1 & H2 & _).
  assert (~ In (value_name a) (by_ ++ extra_idx a)) as H3 by (destruct a; cbn [supported_tree] in Ha; apply Ha).
  assert (~ In (value_name b) (by_ ++ extra_idx b)) as H4 by (destruct b; cbn [supported_tree] in Hb; apply Hb).
  destruct (Nat.ltb _ _); auto.
Qed.
Lemma supported_value by_ m : supported_tree by_ m -> ~ In (value_name m) (by_ ++ extra_idx m).
Proof. destruct m; cbn [supported_tree]; intros H; apply H. Qed.
Lemma keeps_l op r : keeps (vop op (VNum r)).
Proof. intros x. rewrite aggregate_vop, orders_vop, vrefs_vop. auto. Qed.
Lemma keeps_r op r : keeps (fun x => vop op x (VNum r)).
Proof. intros x. rewrite aggregate_vop, orders_vop, vrefs_vop. cbn. now rewrite orb_false_r, !app_nil_r. Qed.
Lemma array_none prefix by_ over c : array_source (From (distribution_sql prefix by_ over c)) = false.
Proof.
  unfold distribution_sql. cbn [array_source]. rewrite existsb_app. apply orb_false_intro.
  - induction (add_cols by_ over) as [|x l IH]; [reflexivity|exact IH].
  - induction (filter _ (columns_of c)) as [|x l IH]; [reflexivity|exact IH].
Qed.
Lemma form_of_dist prefix by_ over v c run : shape c (by_ ++ over) v -> over <> [] -> form (by_ ++ over) (String.append prefix v) run (distribution_sql prefix by_ over c).
Proof.
  intros Hsh Ho. assert (NoDup (by_ ++ over)) as Hnd by apply Hsh.
  assert (distribution_sql prefix by_ over c = sel1 (by_ ++ over) (String.append prefix v) (VDiv (VRef (Plain v)) (VSumOver v by_)) (From c) None) as ->.
  { unfold distribution_sql. rewrite add_cols_app by assumption. now rewrite (shape_vals c _ v Hsh). }
  apply form_sel; [reflexivity|reflexivity|]. intros E. apply app_eq_nil in E as [_ E]. contradiction.
Qed.
Lemma form_of_cum by_ over how asc v dist : shape dist (by_ ++ over) v -> over <> [] -> form (by_ ++ over) (String.append "Cumulative " v) true (cumulative_sql by_ (by_ ++ over) over how asc dist).
Proof.
  intros Hsh Ho.
  assert (cumulative_sql by_ (by_ ++ over) over how asc dist =
          sel1 (by_ ++ over) (String.append "Cumulative " v) (VCumOver v by_ (window_order how asc over v)) (From dist) None) as ->.
  { unfold cumulative_sql. rewrite (shape_vals dist _ v Hsh). cbn [List.map]. unfold sel1, window_order. destruct how; reflexivity. }
  apply form_sel; [reflexivity|discriminate|]. intros E. apply app_eq_nil in E as [_ E]. contradiction.
Qed.
Lemma form_of_change (percent : bool) (by_ cond base rest : list string) (incl_base : bool) (v : string) (raw : sqlq) run :
  let idx := by_ ++ cond ++ rest in let v' := String.append v (if percent then " Percent Change" else " Absolute Change") in
  shape raw idx v -> cond <> [] -> form idx v' run (change_sql percent cond base incl_base idx raw).
Proof.
  intros idx v' Hsh Hc. pose proof Hsh as (Hnd & Hv & _). set (us := by_ ++ rest).
  assert (exists w, change_sql percent cond base incl_base idx raw =
      sel1 idx v' (change_expr percent v v) (Join "ChangeRaw" raw "ChangeBase" (SqlSel (pass_all (us ++ [v])) (From raw) (Some (WEq (combine cond base))) []) us) w) as [w ->].
  { unfold change_sql. rewrite (shape_add _ _ _ Hsh), (shape_all _ _ _ Hsh).
    assert (difference (idx ++ [v]) cond = us ++ [v]) as ->.
    { unfold idx. rewrite <- !app_assoc. rewrite difference_split; [unfold us; now rewrite <- app_assoc|].
      pose proof (NoDup_snoc _ _ Hnd Hv) as H. unfold idx in H. rewrite <- !app_assoc in H. exact H. }
    assert (difference idx cond = us) as -> by (unfold idx; now rewrite difference_split).
    rewrite !last_values_one. eexists. reflexivity. }
  apply form_sel; [now destruct percent|now destruct percent|]. intros E. apply app_eq_nil in E as [_ E]. apply app_eq_nil in E as [E _]. contradiction.
Qed.
Lemma form_of_div d by_ over v c run : shape c (by_ ++ over) v -> over <> [] -> form by_ (div_name d v) run (diversity_sql d by_ over by_ (distribution_sql "" by_ over c)).
Proof.
  intros Hsh Ho. assert (NoDup (by_ ++ over)) as Hnd by apply Hsh. assert (~ In v (by_ ++ over)) as Hv by apply Hsh.
  pose proof (form_of_dist "" by_ over v c run Hsh Ho) as HF. apply form_shape in HF; [|exact Hnd|exact Hv]. change (String.append "" v) with v in HF.
  unfold diversity_sql. rewrite add_cols_app by assumption. rewrite (shape_vals _ _ v HF). cbn [List.map]. destruct d as [| |k|share].
  - apply form_group. intros _. split; [reflexivity|apply array_none].
  - apply form_group. intros _. split; [reflexivity|apply array_none].
  - apply (form_sel by_ _ run (VSumArr v)); reflexivity.
  - apply form_group. intros _. split; [reflexivity|]. cbn [array_source]. rewrite existsb_app. cbn. rewrite orb_false_r. clear. induction by_ as [|x l IH]; [reflexivity|exact IH].
Qed.
(** every generated query has one of the forms and is well formed *)
Lemma tree_ok glob m : forall loc by_, supported_tree by_ m ->
  form (by_ ++ extra_idx m) (value_name m) (running m) (tree_sql glob loc (by_ ++ extra_idx m) by_ m) /\ well_scoped (tree_sql glob loc (by_ ++ extra_idx m) by_ m) = true.
Proof.
  assert (forall idx v run q, NoDup idx -> ~ In v idx -> form idx v run q /\ well_scoped q = true -> ok q idx v) as HOK by (intros idx v run q Hd Hv [Hf Hw]; split; [now apply (form_shape _ _ run)|exact Hw]).
  induction m as [m name|over c IH w|over how asc c IH w|p cond base incl c IH w|d over c IH w|op a IHa b IHb name w|op x c IH name w|op c IH x name w]; intros loc by_ Hs; pose proof (supported_nodup _ _ Hs) as Hnd0; pose proof (nodup_index _ _ Hs) as Hnd1; pose proof Hs as Hs0; cbn [supported_tree] in Hs; cbn [running].
  - cbn [extra_idx tree_sql value_name] in *. rewrite app_nil_r in *. split; [now apply form_leaf|reflexivity].
  - destruct Hs as (Hv & Ho & He & Hs). cbn [extra_idx tree_sql value_name] in *. specialize (IH (remove (add (add [] w) loc) glob) _ Hs). apply HOK in IH; [|now apply nodup_index|now apply supported_value].
    rewrite He in *. rewrite app_nil_r in *. rewrite add_cols_app by (now apply supported_nodup in Hs). split; [apply form_of_dist; [apply IH|exact Ho]|]. exact (proj2 (dist_ok "Distribution of " _ _ _ _ IH Hv)).
  - destruct Hs as (Hv & Ho & He & Hv1 & _ & Hs). cbn [extra_idx tree_sql value_name] in *. specialize (IH (remove (add (add [] w) loc) glob) _ Hs). apply HOK in IH; [|now apply nodup_index|now apply supported_value].
    rewrite He in *. rewrite app_nil_r in *. rewrite add_cols_app by (now apply supported_nodup in Hs). pose proof (dist_ok "Distribution of " _ _ _ _ IH Hv1) as HD. split; [apply form_of_cum; [apply HD|exact Ho]|]. exact (proj2 (cum_ok _ _ how asc _ _ HD Hv)).
  - destruct Hs as (Hv & Ho & _ & Hs). cbn [extra_idx tree_sql value_name] in *. specialize (IH (remove (add (add [] w) loc) glob) _ Hs). apply HOK in IH; [|now apply nodup_index|now apply supported_value]. rewrite <- app_assoc in IH.
    rewrite add_cols_app by (now apply supported_nodup in Hs). split; [apply form_of_change; [apply IH|exact Ho]|]. exact (proj2 (change_ok p by_ cond base (extra_idx c) incl _ _ IH Hv)).
  - destruct Hs as (Hv & Ho & (m & name & ->) & Hcv & Hs). cbn [extra_idx tree_sql value_name] in *. specialize (IH (remove (add (add [] w) loc) glob) _ Hs). apply HOK in IH; [|exact (nodup_index _ _ Hs)|exact (supported_value _ _ Hs)]. rewrite !app_nil_r in *.
    rewrite add_cols_app by (now apply supported_nodup in Hs). cbn [tree_sql] in IH. split; [apply form_of_div; [apply IH|exact Ho]|]. exact (proj2 (div_ok d _ _ _ _ IH Hv Hcv)).
  - pose proof (nested_app _ _ _ _ _ _ Hs0) as HN. destruct (fresh_values _ _ _ _ _ _ Hs0) as [Va Vb]. destruct (own_index glob (remove (add (add [] w) loc) glob) _ _ _ _ _ _ Hs0) as [Ea Eb].
    cbn [tree_sql value_name]. rewrite Ea, Eb. cbn [extra_idx] in *. rewrite <- wider_app in *. destruct Hs as (Hv & Ha & Hb & _).
    specialize (IHa (remove (add (add [] w) loc) glob) by_ Ha). specialize (IHb (remove (add (add [] w) loc) glob) by_ Hb). pose proof (nodup_index _ _ Ha) as Da. pose proof (nodup_index _ _ Hb) as Db. split.
    + apply (composite_form op name _ _ (value_name a) (value_name b)); auto; [apply IHa|apply IHb].
    + apply (composite_scoped op name _ _ (value_name a) (value_name b) (running a) (running b)); auto; (apply IHa || apply IHb).
  - destruct Hs as (Hv & Hs). cbn [extra_idx tree_sql value_name] in *. specialize (IH (remove (add (add [] w) loc) glob) by_ Hs). pose proof (supported_value _ _ Hs) as Hvc. destruct IH as [IHf IHw]. split.
    + apply (const_form _ _ _ _ (value_name c)); auto. apply keeps_l.
    + apply (const_scoped _ _ _ _ (value_name c) (running c)); auto. apply keeps_l.
  - destruct Hs as (Hv & Hs). cbn [extra_idx tree_sql value_name] in *. specialize (IH (remove (add (add [] w) loc) glob) by_ Hs). pose proof (supported_value _ _ Hs) as Hvc. destruct IH as [IHf IHw]. split.
    + apply (const_form _ _ _ _ (value_name c)); auto. apply keeps_r.
    + apply (const_scoped _ _ _ _ (value_name c) (running c)); auto. apply keeps_r.
Qed.
Lemma tree_shape glob m loc by_ : supported_tree by_ m -> shape (tree_sql glob loc (by_ ++ extra_idx m) by_ m) (by_ ++ extra_idx m) (value_name m).
Proof. intros H. apply (form_shape _ _ (running m)); [now apply nodup_index|now apply supported_value|now apply tree_ok]. Qed.
Theorem query_ok m by_ : supported_tree by_ m -> well_scoped (op_to_sql m by_) = true /\ all_columns (op_to_sql m by_) = by_ ++ extra_idx m ++ [value_name m].
Proof.
  intros H. unfold op_to_sql. rewrite add_cols_app by (now apply nodup_index).
  split; [now apply tree_ok|]. rewrite (shape_all _ _ _ (tree_shape _ _ _ _ H)). now rewrite <- app_assoc.
Qed.
