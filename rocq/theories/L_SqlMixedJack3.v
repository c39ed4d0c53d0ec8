(** Lemmas for C68: standard errors. *)
From Coq Require Import Reals List Bool String Arith ZArith Permutation Lia.
From Verif Require Import M_Num M_Frame L_Frame M_Leaf M_Ops L_OpsA L_OpsB L_OpsC M_Slices S_Slices L_Slices M_Jackknife S_Jackknife L_Jackknife2 L_Jackknife3 M_SqlGlobal S_SqlGlobal M_SqlLeaf S_SqlLeaf L_SqlLeaf L_SqlLeaf2 M_SqlOps S_SqlOps L_SqlOps L_SqlOps7 L_SqlSort L_SqlScope L_SqlJack2 L_SqlJack3 M_SqlJackknife S_SqlJackknife L_SqlJack1 L_SqlJack4 L_SqlJack5 L_SqlJack6 L_SqlJack7 M_SqlMixed S_SqlMixed L_SqlMixed M_SqlMixedJack L_SqlMixedJack1 L_SqlMixedJack2.
Import ListNotations.
Open Scope string_scope.
Open Scope list_scope.

Lemma perm_concat_present {A} (V : A -> num) (f : rcolumn -> num) (cs : list (list A)) cols :
  Forall2 (fun c col => Permutation (present (List.map f col)) (present (List.map V c))) cs cols ->
  Permutation (present (List.map f (List.concat cols))) (present (List.map V (List.concat cs))).
Proof.
  induction 1 as [|c col cs cols H _ IH]; [constructor|]. cbn [List.concat]. rewrite !map_app, !present_app. now apply Permutation_app.
Qed.
Lemma Forall2_imp {A B} (P Q : A -> B -> Prop) l l' : (forall a b, P a b -> Q a b) -> Forall2 P l l' -> Forall2 Q l l'.
Proof. intros H. induction 1; constructor; auto. Qed.

Lemma nodup_app_right {A} (a b : list A) : NoDup (a ++ b) -> NoDup b.
Proof. induction a as [|x a IH]; [auto|]. cbn. intros H. inversion H; subst. auto. Qed.
Lemma nodup_app_left {A} (a b : list A) : NoDup (a ++ b) -> NoDup a.
Proof. induction a as [|x a IH]; [constructor|]. cbn. intros H. inversion H as [|? ? H1 H2]; subst. constructor; [|auto]. intros Hi. apply H1, in_or_app. now left. Qed.

Section Main.
  Variables (parse : string -> cond) (dbo : query -> list (skey * option R) -> list (skey * option R)) (dbd : list bucket -> list bucket).
  Variables (psort : cum_how -> bool -> nat -> rframe -> rframe) (where_ : list string) (m : otree) (s : list string) (unit : string) (t0 : stable).
  Hypothesis Hdb : some_order dbo.
  Hypothesis Hdd : forall l, Permutation (dbd l) l.
  Hypothesis Hwhere : forall f r, In f where_ -> In r t0 -> same_verdict (parse f) r.
  Local Notation t := (filter (spass parse where_) t0).
  Hypothesis Hunit : forall r, In r t -> slab r unit <> None.
  Notation n := (List.length s).
  Notation df := (pandas_table t).
  Lemma where_pandas' : filter (pfilters parse where_) (pandas_table t0) = df.
  Proof. rewrite (pandas_filter parse where_ t0 Hwhere). reflexivity. Qed.

  Section Split.
  Hypothesis Hps : pandas_sorts psort.
  Hypothesis Hparse : forall f, ~ In resample_idx (cond_labels (parse f)).
  Hypothesis Hsup : supported_tree (s ++ [resample_idx]) m.
  Hypothesis Hpoint : child_fits parse psort m s t.
  Hypothesis Hpmix : mixed_fits parse m [] s t.
  Hypothesis Hmix : forall k x, (exists r, In r t /\ slab r unit = Some x) -> left_out s unit k x t <> [] ->
    child_fits parse psort m [] (left_out s unit k x t) /\ every_leaf_has_rows parse m (left_out s unit k x t) /\ mixed_fits parse m [] [] (left_out s unit k x t).
  Hypothesis Hex : exists k x, unit_in s unit k x t /\ left_out s unit k x t <> [].

  Lemma Hlab' r c : In r t -> In c s -> slab r c <> None.
  Proof. apply (split_labels parse psort where_ m s t0 Hpoint). Qed.
  Lemma pandas_row_V R reps k g : op_compute parse psort m (s ++ [resample_idx]) (pandas_table (jk_general s unit t)) = Some R ->
    op_replicates parse psort m s unit df = Some reps -> List.length k = n ->
    present (direct_row reps (k ++ g)) = present (List.map (V R k g) (loo_units s unit df)).
  Proof.
    intros ER HD Hk. unfold op_replicates in HD. destruct (Nat.ltb _ 2); [discriminate|]. injection HD as <-. unfold direct_row.
    assert (forall l, incl l (loo_units s unit df) ->
      present (List.map (lookup (k ++ g)) (flat_map (fun x => match op_compute parse psort m s (loo_sample s unit df x) with Some r => [r] | None => [] end) l)) = present (List.map (V R k g) l)) as H; [|apply H, incl_refl].
    induction l as [|x l IH]; intros Hi; auto. cbn [flat_map List.map]. rewrite map_app, present_app, IH by (intros z Hz; apply Hi; now right).
    change (V R k g x :: List.map (V R k g) l) with ([V R k g x] ++ List.map (V R k g) l). rewrite present_app. f_equal.
    destruct (units_In s unit df (df_unit unit t Hunit) x) as [y [-> (r & Hr1 & Hr2)]]; [apply Hi; now left|]. cbn [V].
    pose proof (sample_value parse psort m s unit t Hps Hparse Hsup Hunit Hlab' (Hparts parse psort m s unit t Hmix) Hex R y k g ER Hk) as HV.
    destruct (op_compute parse psort m s (loo_sample s unit df (Some y))) as [D|] eqn:E; cbn [List.map].
    - rewrite HV; [reflexivity|]. apply in_map_iff in Hr1 as (r' & <- & Hr1). exists r'. auto.
    - rewrite HV; [reflexivity|]. apply in_map_iff in Hr1 as (r' & <- & Hr1). exists r'. auto.
  Qed.
  Lemma point_lengths P : op_compute parse psort m s df = Some P -> forall q, In q P -> (n <= List.length (fst q))%nat.
  Proof.
    intros EP q Hq. destruct Hpoint as [Hf Ht].
    destruct (tree_step parse db_sort psort t db_sort_sorts Hps [] m s [] []) as (F & EF & HF & _); [exact Hf|apply (sup_s m s Hsup)|apply placed_nil|now rewrite no_filters|].
    rewrite no_filters in EF. rewrite EP in EF. injection EF as <-. destruct HF as (_ & _ & _ & _ & _ & HL). rewrite Forall_forall in HL. specialize (HL q Hq). rewrite app_length in HL. lia.
  Qed.
  Theorem mixed_same batch : jackknife_mixed parse dbo dbd psort m s unit where_ batch t0 = jackknife_pandas parse psort where_ unit m s (pandas_table t0).
  Proof.
    unfold jackknife_mixed, jackknife_pandas. cbv zeta. rewrite where_pandas'. unfold sub_table.
    pose proof (tree_equal parse dbo psort Hdb m [] s t Hpmix) as EP. rewrite !sub_nil in EP. rewrite EP.
    pose proof (Hparts parse psort m s unit t Hmix) as HP.
    destruct (jk_whole parse psort m s unit t Hps Hparse Hsup Hunit Hlab' HP Hex) as (R & ER & _).
    destruct (replicates_exist parse psort m s unit t Hps Hparse Hsup Hunit Hlab' HP Hex) as (r0 & reps & EL). rewrite EL.
    change (first_seen (List.map snd (dbd (buckets s unit t)))) with (units dbd s unit t). set (us := units dbd s unit t).
    assert (us <> []) as Hus. { destruct Hex as (k & x & (r & Hr & _ & Er) & _). intros E. assert (In (Some x) us) as Hi; [|rewrite E in Hi; destruct Hi]. unfold us. rewrite (units_in dbd s unit t Hdd). eauto. }
    assert (NoDup us) as Hnd by apply first_seen_NoDup.
    assert (forall r y, In r t -> slab r unit = Some y -> In (Some y) us) as Hall by (intros r y Hr Er; unfold us; rewrite (units_in dbd s unit t Hdd); eauto).
    assert (forall x, In x us -> exists y, x = Some y /\ exists r, In r t /\ slab r unit = Some y) as Hsome by apply (units_some dbd s unit t Hdd Hunit).
    set (columns := match batch with 0 | 1 => _ | _ => _ end).
    assert (exists cols, columns = Some cols /\ forall k g, List.length k = n -> Permutation (present (List.map (slookup (List.map Some (k ++ g))) cols)) (present (List.map (V R k g) us))) as (cols & EC & HC).
    { assert (exists cols, all_some (List.map (loo_one parse dbo psort m s unit (dbd (buckets s unit t)) t) us) = Some cols /\ forall k g, List.length k = n -> Permutation (present (List.map (slookup (List.map Some (k ++ g))) cols)) (present (List.map (V R k g) us))) as H1.
      { destruct (all_some_ex (loo_one parse dbo psort m s unit (dbd (buckets s unit t)) t) (fun x c => forall k g, List.length k = n -> slookup (List.map Some (k ++ g)) c = V R k g x) us) as (cols & E & HF).
        - intros x Hx. destruct (Hsome x Hx) as (y & -> & Hy). apply (one_value parse dbo dbd psort m s unit t Hdb Hdd Hps Hparse Hsup Hunit Hlab' Hmix Hex R ER y Hy).
        - exists cols. split; [exact E|]. intros k g Hk. assert (List.map (slookup (List.map Some (k ++ g))) cols = List.map (V R k g) us) as ->; [|reflexivity]. clear - HF Hk. induction HF as [|x c l l' H _ IH]; [reflexivity|]. cbn [List.map]. rewrite IH. f_equal. now apply H. }
      assert (forall b, b <> O -> exists cols, option_map (@List.concat _) (all_some (List.map (loo_batch parse dbo psort m s unit (dbd (buckets s unit t)) t) (chunks b us))) = Some cols /\ forall k g, List.length k = n -> Permutation (present (List.map (slookup (List.map Some (k ++ g))) cols)) (present (List.map (V R k g) us))) as H2.
      { intros b Hb.
        assert (forall c, In c (chunks b us) -> c <> [] /\ NoDup c /\ forall x, In x c -> In x us) as Hc.
        { intros c Hc. split; [now apply (chunks_ne b us)|]. apply in_map_iff in Hc as (i & <- & _). rewrite <- (firstn_skipn (i * b) us) in Hnd. apply nodup_app_right in Hnd. split.
          - rewrite <- (firstn_skipn b (skipn (i * b) us)) in Hnd. now apply nodup_app_left in Hnd.
          - intros x Hx. rewrite <- (firstn_skipn (i * b) us). apply in_or_app. right. rewrite <- (firstn_skipn b (skipn (i * b) us)). apply in_or_app. now left. }
        destruct (all_some_ex (loo_batch parse dbo psort m s unit (dbd (buckets s unit t)) t) (fun c cols => forall k g, List.length k = n -> Permutation (present (List.map (slookup (List.map Some (k ++ g))) cols)) (present (List.map (V R k g) c))) (chunks b us)) as (cols & E & HF).
        - intros c Hi. destruct (Hc c Hi) as (H1' & H2' & H3'). apply (batch_value parse dbo dbd psort m s unit t Hdb Hdd Hps Hparse Hsup Hunit Hlab' Hmix Hex R ER c); auto.
        - exists (List.concat cols). rewrite E. split; [reflexivity|]. intros k g Hk. rewrite <- (chunks_concat b us Hb). apply perm_concat_present. eapply Forall2_imp; [|exact HF]. intros c col H. now apply H. }
      unfold columns. destruct batch as [|[|b]]; [exact H1|exact H1|]. apply H2. discriminate. }
    rewrite EC. destruct us as [|u us']; [contradiction|]. destruct (op_compute parse psort m s df) as [P|] eqn:EPt; [|reflexivity]. f_equal. apply map_ext_in. intros q Hq.
    pose proof (point_lengths P EPt q Hq) as Hlq. rewrite <- (firstn_skipn n (fst q)) at 2 3 5 6.
    assert (List.length (firstn n (fst q)) = n) as Hk by (rewrite firstn_length; lia).
    assert (Permutation (present (List.map (slookup (List.map Some (firstn n (fst q) ++ skipn n (fst q)))) cols)) (present (direct_row (r0 :: reps) (firstn n (fst q) ++ skipn n (fst q))))) as HPm.
    { rewrite (HC _ _ Hk), (pandas_row_V R (r0 :: reps) _ _ ER EL Hk). unfold present. apply filter_perm. apply Permutation_map. apply NoDup_Permutation.
      - exact Hnd.
      - apply units_NoDup.
      - intros x. split.
        + intros Hx. destruct (Hsome x Hx) as (y & -> & r & Hr & Er). apply (units_all s unit df (pandas_row r)); [now apply in_map|exact Er].
        + intros Hx. destruct (units_In s unit df (df_unit unit t Hunit) x Hx) as [y [-> (r & Hr & Er)]]. apply in_map_iff in Hr as (r' & <- & Hr). now apply (Hall r'). }
    f_equal; [f_equal; now apply jk_stderr_present|now apply dof_present].
  Qed.
  End Split.

  (** without split_by, batch size 1: the same tables *)
  Section Plain.
  Hypothesis Hs : s = [].
  Hypothesis Hpmix : mixed_fits parse m [] [] t.
  Hypothesis Hmix : forall x, (exists r, In r t /\ slab r unit = Some x) ->
    mixed_fits parse m [] [] (left_out [] unit [] x t) /\ op_compute parse psort m [] (pandas_table (left_out [] unit [] x t)) <> None.
  Hypothesis Htwo : exists r1 r2, In r1 t /\ In r2 t /\ slab r1 unit <> slab r2 unit.
  Lemma without_left x : without_unit unit (Some x) t = left_out [] unit [] x t.
  Proof.
    rewrite <- (without_group [] unit t Hunit [] x). unfold M_SqlLeaf.group. symmetry. apply filter_all. reflexivity.
  Qed.
  Theorem plain_same batch : (batch <= 1)%nat -> jackknife_mixed parse dbo dbd psort m s unit where_ batch t0 = jackknife_pandas parse psort where_ unit m s (pandas_table t0).
  Proof.
    intros Hb. subst s. unfold jackknife_mixed, jackknife_pandas. cbv zeta. rewrite where_pandas'. unfold sub_table.
    pose proof (tree_equal parse dbo psort Hdb m [] [] t Hpmix) as EP. rewrite !sub_nil in EP. rewrite EP. clear EP.
    change (first_seen (List.map snd (dbd (buckets [] unit t)))) with (units dbd [] unit t). set (us := units dbd [] unit t).
    assert (NoDup us) as Hnd by apply first_seen_NoDup.
    assert (forall r y, In r t -> slab r unit = Some y -> In (Some y) us) as Hall by (intros r y Hr Er; unfold us; rewrite (units_in dbd [] unit t Hdd); eauto).
    assert (forall x, In x us -> exists y, x = Some y /\ exists r, In r t /\ slab r unit = Some y) as Hsome by apply (units_some dbd [] unit t Hdd Hunit).
    assert (us <> []) as Hus. { destruct Htwo as (r1 & _ & H1 & _). pose proof (Hunit r1 H1) as Hu. destruct (slab r1 unit) as [y|] eqn:Ey; [|congruence]. intros E. pose proof (Hall r1 y H1 Ey) as Hi. now rewrite E in Hi. }
    set (D := fun x : option string => match x with Some y => match op_compute parse psort m [] (pandas_table (left_out [] unit [] y t)) with Some d => d | None => [] end | None => [] end).
    assert (all_some (List.map (loo_one parse dbo psort m [] unit (dbd (buckets [] unit t)) t) us) = Some (List.map (fun x => List.map labelled (D x)) us)) as EC.
    { apply all_some_map. intros x Hx. destruct (Hsome x Hx) as (y & -> & Hy). unfold loo_one. rewrite without_left. destruct (Hmix y Hy) as [HM HN].
      pose proof (tree_equal parse dbo psort Hdb m [] [] (left_out [] unit [] y t) HM) as E. rewrite !sub_nil in E. rewrite E. cbn [D]. destruct (op_compute parse psort m [] _); [reflexivity|contradiction]. }
    assert (match batch with 0 | 1 => all_some (List.map (loo_one parse dbo psort m [] unit (dbd (buckets [] unit t)) t) us) | _ => option_map (@List.concat _) (all_some (List.map (loo_batch parse dbo psort m [] unit (dbd (buckets [] unit t)) t) (chunks batch us))) end =
      Some (List.map (fun x => List.map labelled (D x)) us)) as -> by (destruct batch as [|[|b]]; [exact EC|exact EC|lia]).
    assert (op_replicates parse psort m [] unit df = Some (List.map D (loo_units [] unit df))) as ->.
    { unfold op_replicates. destruct Htwo as (r1 & r2 & H1 & H2 & Hne). rewrite (two_units unit df (pandas_row r1) (pandas_row r2)); [|now apply in_map|now apply in_map|exact Hne]. f_equal.
      assert (forall l, incl l (loo_units [] unit df) -> flat_map (fun x => match op_compute parse psort m [] (loo_sample [] unit df x) with Some r => [r] | None => [] end) l = List.map D l) as H; [|apply H, incl_refl].
      induction l as [|x l IH]; intros Hi; [reflexivity|]. cbn [flat_map List.map]. rewrite IH by (intros z Hz; apply Hi; now right).
      destruct (units_In [] unit df (df_unit unit t Hunit) x (Hi x (or_introl eq_refl))) as [y [-> (r & Hr1 & Hr2)]].
      assert (loo_sample [] unit df (Some y) = pandas_table (left_out [] unit [] y t)) as ->.
      { rewrite <- without_pandas. unfold loo_sample. rewrite is_unit_without. f_equal. symmetry. apply filter_all. reflexivity. }
      apply in_map_iff in Hr1 as (r' & <- & Hr1). destruct (Hmix y) as [_ HN]; [now exists r'|]. cbn [D]. destruct (op_compute parse psort m [] _); [reflexivity|contradiction]. }
    assert (Permutation us (loo_units [] unit df)) as HP.
    { apply NoDup_Permutation; [exact Hnd|apply units_NoDup|]. intros x. split.
      - intros Hx. destruct (Hsome x Hx) as (y & -> & r & Hr & Er). apply (units_all [] unit df (pandas_row r)); [now apply in_map|exact Er].
      - intros Hx. destruct (units_In [] unit df (df_unit unit t Hunit) x Hx) as [y [-> (r & Hr & Er)]]. apply in_map_iff in Hr as (r' & <- & Hr). now apply (Hall r'). }
    destruct us as [|u us']; [contradiction|]. destruct (op_compute parse psort m [] df) as [P|]; [|reflexivity].
    destruct (loo_units [] unit df) as [|v vs] eqn:Ev; [symmetry in HP; apply Permutation_nil in HP; discriminate|]. change (List.map D (v :: vs)) with (D v :: List.map D vs). cbn iota. f_equal. apply map_ext. intros q.
    assert (Permutation (present (List.map (slookup (List.map Some (fst q))) (List.map (fun x => List.map labelled (D x)) (u :: us')))) (present (direct_row (D v :: List.map D vs) (fst q)))) as HPm.
    { unfold present. apply filter_perm. unfold direct_row. change (D v :: List.map D vs) with (List.map D (v :: vs)). rewrite !map_map. rewrite HP.
      assert (List.map (fun x => slookup (List.map Some (fst q)) (List.map labelled (D x))) (v :: vs) = List.map (fun x => lookup (fst q) (D x)) (v :: vs)) as ->; [|reflexivity]. apply map_ext. intros x. apply slookup_labelled. }
    f_equal; [f_equal; now apply jk_stderr_present|now apply dof_present].
  Qed.
  End Plain.
End Main.
