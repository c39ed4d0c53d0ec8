(** The resampled table: its groups are the leave-one-out samples. *)
From Coq Require Import Reals List Bool String Arith ZArith Permutation Sorted Lia Lra.
From Verif Require Import M_Num M_Frame L_Frame M_Leaf M_Ops S_Ops L_OpsA L_OpsB L_OpsC M_Slices S_Slices L_Slices M_SqlGlobal S_SqlGlobal L_SqlGlobal M_SqlLeaf S_SqlLeaf L_SqlLeaf L_SqlLeaf2 M_SqlOps S_SqlOps L_SqlOps L_SqlOps7 L_SqlSort L_SqlScope L_SqlJack2 L_SqlJack3 M_SqlJackknife S_SqlJackknife L_SqlJack1.
Import ListNotations.
Open Scope string_scope.
Open Scope list_scope.

(** ** What tree_step knows of the inputs of operations *)
Section Proper.
  Variables (parse : string -> cond) (psort : cum_how -> bool -> nat -> rframe -> rframe) (t : stable).
  Hypothesis Hps : pandas_sorts psort.
  Lemma no_filters (df : table) : filter (pfilters parse []) df = df.
  Proof. apply filter_all. reflexivity. Qed.
  Lemma proper_from m : forall by_ above loc, all_fit parse t [] m by_ above loc -> supported_tree by_ m -> placed parse [] above loc m ->
    tree_fits parse psort m by_ (filter (pfilters parse above) (pandas_table t)) -> proper_in parse psort m by_ (filter (pfilters parse above) (pandas_table t)).
  Proof.
    assert (forall c by_ above loc, all_fit parse t [] c by_ above loc -> supported_tree by_ c -> placed parse [] above loc c -> tree_fits parse psort c by_ (filter (pfilters parse above) (pandas_table t)) ->
            forall fr, op_compute parse psort c by_ (filter (pfilters parse above) (pandas_table t)) = Some fr -> proper fr) as HP.
    { intros c by_ above loc H1 H2 H3 H4 fr E. destruct (tree_step parse db_sort psort t db_sort_sorts Hps [] c by_ above loc H1 H2 H3 H4) as (F & EF & (_ & _ & _ & Hi & Hn & _) & _). rewrite EF in E. injection E as <-. split; assumption. }
    assert (forall c by_ above loc w, all_fit parse t [] c by_ (above ++ w) loc -> ~ In "" w) as HW.
    { intros c by_ above loc w H Hi. apply (nonempty_above parse t [] c by_ (above ++ w) loc H), in_or_app. auto. }
    induction m as [m name|over c IH w|over how asc c IH w|p cond base incl c IH w|d over c IH w|op a IHa b IHb name w|op x c IH name w|op c IH x name w]; intros by_ above loc Hb Hs Hpl Htf; cbn [proper_in]; cbn zeta.
    - exact I.
    - cbn [supported_tree] in Hs. destruct Hs as (_ & _ & _ & Hs). cbn [tree_fits] in Htf. destruct Htf as [Htf _]. pose proof (HW c (by_ ++ over) above _ w Hb) as Hw.
      pose proof (placed_child parse [] above loc (ODist over c w) _ _ _ c eq_refl (or_introl eq_refl) Hw Hpl) as Hpl'. rewrite filter_pfilters_app in *. eapply IH; eauto.
    - cbn [supported_tree] in Hs. destruct Hs as (_ & _ & _ & _ & _ & Hs). cbn [tree_fits] in Htf. destruct Htf as [Htf _]. pose proof (HW c (by_ ++ over) above _ w Hb) as Hw.
      pose proof (placed_child parse [] above loc (OCum over how asc c w) _ _ _ c eq_refl (or_introl eq_refl) Hw Hpl) as Hpl'. rewrite filter_pfilters_app in *. split; [eapply IH; eauto|eapply HP; eauto].
    - destruct (tree_step parse db_sort psort t db_sort_sorts Hps [] (OChange p cond base incl c w) by_ above loc Hb Hs Hpl Htf) as (F & EF & _).
      cbn [supported_tree] in Hs. destruct Hs as (_ & _ & _ & Hs). cbn [tree_fits] in Htf. destruct Htf as [Htf _]. pose proof (HW c (by_ ++ cond) above _ w Hb) as Hw.
      pose proof (placed_child parse [] above loc (OChange p cond base incl c w) _ _ _ c eq_refl (or_introl eq_refl) Hw Hpl) as Hpl'.
      split; [|rewrite EF; discriminate]. rewrite filter_pfilters_app in *. eapply IH; eauto.
    - cbn [supported_tree] in Hs. destruct Hs as (_ & _ & _ & _ & Hs). cbn [tree_fits] in Htf. destruct Htf as [Htf _]. pose proof (HW c (by_ ++ over) above _ w Hb) as Hw.
      pose proof (placed_child parse [] above loc (ODiv d over c w) _ _ _ c eq_refl (or_introl eq_refl) Hw Hpl) as Hpl'. rewrite filter_pfilters_app in *. split; [eapply IH; eauto|eapply HP; eauto].
    - cbn [supported_tree] in Hs. destruct Hs as (_ & Sa & Sb & _). cbn [tree_fits] in Htf. destruct Htf as (Ta & Tb & _).
      assert (all_fit parse t [] a by_ (above ++ w) (remove (add (add [] w) loc) [])) as Ba by (intros ? ? ? ? H; apply Hb; cbn [bottoms]; apply in_or_app; auto).
      assert (all_fit parse t [] b by_ (above ++ w) (remove (add (add [] w) loc) [])) as Bb by (intros ? ? ? ? H; apply Hb; cbn [bottoms]; apply in_or_app; auto).
      pose proof (HW a by_ above _ w Ba) as Hw.
      pose proof (placed_child parse [] above loc (OBin op a b name w) _ _ _ a eq_refl (or_introl eq_refl) Hw Hpl) as Pa.
      pose proof (placed_child parse [] above loc (OBin op a b name w) _ _ _ b eq_refl (or_intror (or_introl eq_refl)) Hw Hpl) as Pb. rewrite filter_pfilters_app in *. split; [eapply IHa|eapply IHb]; eauto.
    - cbn [supported_tree] in Hs. destruct Hs as (_ & Hs). cbn [tree_fits] in Htf. destruct Htf as [Htf _]. pose proof (HW c by_ above _ w Hb) as Hw.
      pose proof (placed_child parse [] above loc (OConstL op x c name w) _ _ _ c eq_refl (or_introl eq_refl) Hw Hpl) as Hpl'. rewrite filter_pfilters_app in *. eapply IH; eauto.
    - cbn [supported_tree] in Hs. destruct Hs as (_ & Hs). cbn [tree_fits] in Htf. destruct Htf as [Htf _]. pose proof (HW c by_ above _ w Hb) as Hw.
      pose proof (placed_child parse [] above loc (OConstR op c x name w) _ _ _ c eq_refl (or_introl eq_refl) Hw Hpl) as Hpl'. rewrite filter_pfilters_app in *. eapply IH; eauto.
  Qed.

  Lemma mfilled_from m : forall above, (forall l fs, In (l, fs) (leaves_with_filters above m) -> (exists r, In r t /\ spass parse fs r = true) /\ forall f r, In f fs -> In r t -> same_verdict (parse f) r) ->
    mfilled parse m (filter (pfilters parse above) (pandas_table t)).
  Proof.
    induction m as [l w|op a IHa b IHb w|op x a IHa w|op a IHa x w|a IHa w|a IHa w]; intros above H; cbn [mfilled leaves_with_filters] in *; rewrite filter_pfilters_app; auto.
    - destruct (H l (above ++ w) (or_introl eq_refl)) as ((r & Hr & Hp) & Hv). intros E. assert (In (pandas_row r) (filter (pfilters parse (above ++ w)) (pandas_table t))) as Hi; [|rewrite E in Hi; destruct Hi].
      apply filter_In. split; [now apply in_map|]. rewrite verdict_filters; auto.
    - split; [apply IHa|apply IHb]; intros l fs Hl; apply (H l fs), in_or_app; auto.
  Qed.
  Lemma ofilled_from m : forall by_ above loc,
    (forall b ab lc by' l fs, In (b, ab, lc, by') (bottoms [] m by_ above loc) -> In (l, fs) (leaves_with_filters ab b) -> (exists r, In r t /\ spass parse fs r = true) /\ forall f r, In f fs -> In r t -> same_verdict (parse f) r) ->
    ofilled parse m (filter (pfilters parse above) (pandas_table t)).
  Proof.
    induction m as [m name|over c IH w|over how asc c IH w|p cond base incl c IH w|d over c IH w|op a IHa b IHb name w|op x c IH name w|op c IH x name w]; intros by_ above loc H; cbn [bottoms ofilled] in *; rewrite ?filter_pfilters_app; eauto.
    - apply mfilled_from. intros l fs Hl. apply (H m above loc by_ l fs); auto. now left.
    - split; [eapply IHa|eapply IHb]; intros; eapply H; eauto; apply in_or_app; eauto.
  Qed.
  Lemma placed_nil m : placed parse [] [] [] m.
  Proof. split; [intros []|]. split; [auto|]. intros p _ f []. Qed.
End Proper.

(** ** Buckets *)
Lemma fold_and3 l : forall a, fold_right and3 a l = Some true <-> a = Some true /\ Forall (fun v => v = Some true) l.
Proof.
  induction l as [|v l IH]; intros a; cbn [fold_right].
  - split; [intros ->; auto|tauto].
  - split.
    + intros H. assert (v = Some true /\ fold_right and3 a l = Some true) as [-> H2].
      { destruct v as [[]|], (fold_right and3 a l) as [[]|]; cbn in H; try discriminate; auto. }
      apply IH in H2 as [-> H2]. split; [reflexivity|]. now constructor.
    + intros [-> H]. inversion H as [|? ? H1 H2]; subst. rewrite (proj2 (IH (Some true))) by auto. reflexivity.
Qed.
Lemma sql_eq_true a b : sql_eq a b = Some true <-> a = b /\ a <> None.
Proof.
  destruct a as [a|], b as [b|]; cbn; split; try discriminate; try (intros [H1 H2]; congruence).
  - intros H. injection H as H. apply String.eqb_eq in H as ->. split; congruence.
  - intros [H _]. injection H as ->. now rewrite String.eqb_refl.
Qed.
Lemma equal_labels (k : skey) : forall k', List.length k = List.length k' ->
  Forall (fun v => v = Some true) (List.map (fun p => sql_eq (fst p) (snd p)) (combine k k')) <-> k = k' /\ ~ In None k.
Proof.
  induction k as [|a k IH]; intros [|b k'] Hl; try discriminate; cbn [combine List.map].
  - split; [intros _; split; [reflexivity|intros []]|intros _; constructor].
  - injection Hl as Hl. rewrite Forall_cons_iff, sql_eq_true, IH by assumption. cbn [fst snd]. split.
    + intros ([-> H1] & [-> H2]). split; [reflexivity|]. intros [E|E]; auto.
    + intros [E H]. injection E as <- <-. split; [split; [reflexivity|intros ->; apply H; now left]|]. split; [reflexivity|]. intros Hi. apply H. now right.
Qed.
Lemma on_bucket_true s unit k y r : List.length k = List.length s ->
  on_bucket s unit (k, y) r = true <-> k = srow_key s r /\ ~ In None k /\ exists x u, y = Some x /\ slab r unit = Some u /\ x <> u.
Proof.
  intros Hl. unfold on_bucket. cbn [fst snd].
  assert (forall v : option bool, (match v with Some true => true | _ => false end = true) <-> v = Some true) as E by (intros [[]|]; split; congruence).
  rewrite E, fold_and3. rewrite equal_labels by (unfold srow_key; now rewrite map_length).
  assert (option_map negb (sql_eq y (slab r unit)) = Some true <-> exists x u, y = Some x /\ slab r unit = Some u /\ x <> u) as ->.
  { destruct y as [x|], (slab r unit) as [u|]; cbn; split; try discriminate; try (intros (x0 & u0 & E1 & E2 & _); discriminate).
    - intros H. injection H as H. apply negb_true_iff, String.eqb_neq in H. eauto.
    - intros (x0 & u0 & E1 & E2 & Hne). injection E1 as <-. injection E2 as <-. apply String.eqb_neq in Hne. now rewrite Hne. }
  tauto.
Qed.
Lemma filter_single {A} (p : A -> bool) l a : NoDup l -> In a l -> (forall b, In b l -> p b = true <-> b = a) -> filter p l = [a].
Proof.
  induction l as [|b l IH]; intros Hn Hi H; [destruct Hi|]. inversion Hn as [|? ? Hb Hn']; subst. cbn [filter]. destruct (p b) eqn:E.
  - apply (H b (or_introl eq_refl)) in E as ->. f_equal. apply filter_none. intros c Hc. destruct (p c) eqn:Ec; [|reflexivity]. apply (H c (or_intror Hc)) in Ec as ->. contradiction.
  - destruct Hi as [->|Hi]; [rewrite (proj2 (H a (or_introl eq_refl)) eq_refl) in E; discriminate|]. apply IH; auto. intros c Hc. apply H. now right.
Qed.

Section Table.
  Variables (s : list string) (unit : string) (t : stable).
  Hypothesis Hidx : ~ In resample_idx s.
  Hypothesis Hunit : forall r, In r t -> slab r unit <> None.
  Hypothesis Hlab : forall r c, In r t -> In c s -> slab r c <> None.
  Let jk := jk_general s unit t.

  Lemma srow_key_relabel c y r : ~ In resample_idx c -> srow_key c (relabel y r) = srow_key c r.
  Proof. intros H. unfold srow_key. apply map_ext_in. intros x Hx. cbn. destruct (String.eqb_spec x resample_idx) as [->|_]; [contradiction|reflexivity]. Qed.
  Lemma srow_key_app c d r : srow_key (c ++ d) r = srow_key c r ++ srow_key d r. Proof. apply map_app. Qed.
  Lemma srow_key_idx y r : srow_key (s ++ [resample_idx]) (relabel y r) = srow_key s r ++ [y].
  Proof. rewrite srow_key_app, srow_key_relabel by assumption. f_equal. Qed.
  Lemma key_here r : In r t -> exists k, srow_key s r = List.map Some k.
  Proof. intros Hr. apply srow_key_labels. intros c Hc. now apply Hlab. Qed.
  Lemma none_some (k : list string) : ~ In None (List.map Some k).
  Proof. intros H. apply in_map_iff in H as (x & E & _). discriminate. Qed.
  Lemma bucket_len b : In b (buckets s unit t) -> List.length (fst b) = List.length s.
  Proof. unfold buckets. intros H. apply nodup_In, in_map_iff in H as (r & <- & _). cbn. unfold srow_key. apply map_length. Qed.
  Lemma bucket_in k x : In (List.map Some k, Some x) (buckets s unit t) <-> unit_in s unit k x t.
  Proof.
    unfold buckets. rewrite nodup_In, in_map_iff. split.
    - intros (r & E & Hr). injection E as E1 E2. exists r. auto.
    - intros (r & Hr & E1 & E2). exists r. rewrite E1, E2. auto.
  Qed.
  Lemma left_out_in k x r : In r (left_out s unit k x t) <-> In r t /\ srow_key s r = List.map Some k /\ slab r unit <> Some x.
  Proof.
    unfold left_out. rewrite filter_In, andb_true_iff. destruct (skey_dec _ _) as [E|E], (label_dec _ _) as [E'|E']; split; intros H; try tauto; destruct H as (? & ? & ?); try discriminate; tauto.
  Qed.
  (** one row of the table *)
  Lemma one_row k x r : unit_in s unit k x t -> In r t ->
    filter (fun r' => if skey_dec (srow_key (s ++ [resample_idx]) r') (List.map Some (k ++ [x])) then true else false)
      (List.map (fun b => relabel (snd b) r) (filter (fun b => on_bucket s unit b r) (buckets s unit t))) =
    if (if skey_dec (srow_key s r) (List.map Some k) then true else false) && (if label_dec (slab r unit) (Some x) then false else true) then [relabel (Some x) r] else [].
  Proof.
    intros Hu Hr. rewrite filter_map_comm, L_SqlLeaf2.filter_filter.
    assert (forall b, In b (buckets s unit t) -> (on_bucket s unit b r && (if skey_dec (srow_key (s ++ [resample_idx]) (relabel (snd b) r)) (List.map Some (k ++ [x])) then true else false) = true <->
              b = (List.map Some k, Some x) /\ srow_key s r = List.map Some k /\ slab r unit <> Some x)) as HB.
    { intros [kb y] Hb. rewrite andb_true_iff, on_bucket_true by (now apply bucket_len in Hb). cbn [snd]. rewrite srow_key_idx, map_app. cbn [List.map].
      destruct (skey_dec _ _) as [E|E].
      - apply app_inj_tail in E as [E1 E2]. subst y. split.
        + intros [(E3 & E4 & x0 & u & E5 & E6 & Hne) _]. injection E5 as <-. split; [rewrite E3; f_equal; exact E1|]. split; [exact E1|]. rewrite E6. intros Hq; injection Hq as Hq; now apply Hne.
        + intros (E3 & E4 & Hne). injection E3 as ->. split; [|reflexivity]. split; [now symmetry|]. split; [apply none_some|]. specialize (Hunit r Hr).
          destruct (slab r unit) as [u|]; [|congruence]. exists x, u. repeat split. congruence.
      - split; [intros [_ H]; discriminate|]. intros (E3 & E4 & _). injection E3 as -> ->. exfalso. apply E. now rewrite E4. }
    destruct (skey_dec (srow_key s r) (List.map Some k)) as [E1|E1], (label_dec (slab r unit) (Some x)) as [E2|E2]; cbn [andb].
    - rewrite filter_none; [reflexivity|]. intros b Hb. match goal with |- ?X = false => destruct X eqn:E; [|reflexivity] end. apply HB in E as (_ & _ & E); [contradiction|exact Hb].
    - rewrite (filter_single _ _ (List.map Some k, Some x)); [reflexivity|apply NoDup_nodup|now apply bucket_in|]. intros b Hb. rewrite (HB b Hb). tauto.
    - rewrite filter_none; [reflexivity|]. intros b Hb. match goal with |- ?X = false => destruct X eqn:E; [|reflexivity] end. apply HB in E as (_ & E & _); [contradiction|exact Hb].
    - rewrite filter_none; [reflexivity|]. intros b Hb. match goal with |- ?X = false => destruct X eqn:E; [|reflexivity] end. apply HB in E as (_ & E & _); [contradiction|exact Hb].
  Qed.
  Theorem jk_group k x : unit_in s unit k x t -> M_SqlLeaf.group (s ++ [resample_idx]) (List.map Some (k ++ [x])) jk = List.map (relabel (Some x)) (left_out s unit k x t).
  Proof.
    intros Hu. unfold M_SqlLeaf.group, jk, jk_general, left_out.
    assert (forall t', incl t' t -> filter (fun r' => if skey_dec (srow_key (s ++ [resample_idx]) r') (List.map Some (k ++ [x])) then true else false)
       (flat_map (fun r => List.map (fun b => relabel (snd b) r) (filter (fun b => on_bucket s unit b r) (buckets s unit t))) t') =
       List.map (relabel (Some x)) (filter (fun r => (if skey_dec (srow_key s r) (List.map Some k) then true else false) && (if label_dec (slab r unit) (Some x) then false else true)) t')) as H.
    { induction t' as [|r t' IH]; intros Hi; [reflexivity|]. cbn [flat_map]. rewrite filter_app, one_row by (auto; apply Hi; now left). rewrite IH by (intros z Hz; apply Hi; now right).
      cbn [filter]. destruct (_ && _); reflexivity. }
    apply H. intros z; auto.
  Qed.
  Theorem jk_row r' : In r' jk -> exists k x r, r' = relabel (Some x) r /\ unit_in s unit k x t /\ In r (left_out s unit k x t).
  Proof.
    unfold jk, jk_general. intros H. apply in_flat_map in H as (r & Hr & H). apply in_map_iff in H as ([kb y] & <- & H). apply filter_In in H as [Hb H].
    apply on_bucket_true in H as (-> & Hn & x & u & -> & Eu & Hne); [|now apply bucket_len in Hb]. destruct (key_here r Hr) as [k Ek]. exists k, x, r. cbn [snd]. split; [reflexivity|].
    rewrite Ek in Hb. split; [now apply bucket_in|]. apply left_out_in. rewrite Eu. repeat split; auto. congruence.
  Qed.
  Lemma jk_key r' : In r' jk -> exists k x, srow_key (s ++ [resample_idx]) r' = List.map Some (k ++ [x]) /\ unit_in s unit k x t.
  Proof.
    intros H. destruct (jk_row r' H) as (k & x & r & -> & Hu & Hr). exists k, x. split; [|exact Hu]. apply left_out_in in Hr as (_ & E & _). now rewrite srow_key_idx, E, map_app.
  Qed.
  (** ... in pandas *)
  Lemma slice_pandas by_ K T : slice by_ K (pandas_table T) = pandas_table (M_SqlLeaf.group by_ (List.map Some K) T).
  Proof. unfold slice, pandas_table, M_SqlLeaf.group. rewrite filter_map_comm. f_equal. apply filter_ext. intros r. apply has_key_pandas. Qed.
  Lemma slice_jk k x : unit_in s unit k x t -> slice (s ++ [resample_idx]) (k ++ [x]) (pandas_table jk) = List.map (G (Some x)) (pandas_table (left_out s unit k x t)).
  Proof. intros H. rewrite slice_pandas, jk_group by assumption. apply pandas_relabels. Qed.
  Lemma slice_jk_inv K : slice (s ++ [resample_idx]) K (pandas_table jk) <> [] -> exists k x, K = k ++ [x] /\ unit_in s unit k x t.
  Proof.
    intros H. apply slice_nonempty in H as (r & Hr & Hk). unfold pandas_table in Hr. apply in_map_iff in Hr as (r' & <- & Hr). apply row_key_pandas in Hk.
    destruct (jk_key r' Hr) as (k & x & E & Hu). rewrite E in Hk. apply some_inj in Hk. eauto.
  Qed.
End Table.

(** ** Invariance under relabelling *)
Section Inv.
  Variable parse : string -> cond.
  Hypothesis Hparse : forall f, ~ In resample_idx (cond_labels (parse f)).
  Variable x : option string.
  Lemma scell_R c r : scell c (relabel x r) = scell c r.
  Proof. induction c as [v|a IHa b IHb|a IHa]; cbn; [reflexivity|now rewrite IHa, IHb|now rewrite IHa]. Qed.
  Lemma sarg_R e r : sarg parse e (relabel x r) = sarg parse e r.
  Proof. induction e as [fs c|a IHa b IHb]; cbn; [now rewrite (spass_G x parse Hparse), scell_R|now rewrite IHa, IHb]. Qed.
  Lemma inputs_R e rows : inputs parse e (List.map (relabel x) rows) = inputs parse e rows.
  Proof. unfold inputs. rewrite map_map. f_equal. apply map_ext. intros r. apply sarg_R. Qed.
  Lemma pairs_R e f rows : pairs parse e f (List.map (relabel x) rows) = pairs parse e f rows.
  Proof. unfold pairs. rewrite map_map. f_equal. apply map_ext. intros r. now rewrite !sarg_R. Qed.
  Lemma sagg_R a rows : sagg_value parse a (List.map (relabel x) rows) = sagg_value parse a rows.
  Proof. destruct a; cbn [sagg_value]; rewrite ?inputs_R, ?pairs_R; reflexivity. Qed.
  Lemma sexpr_R e rows : sexpr_value parse e (List.map (relabel x) rows) = sexpr_value parse e rows.
  Proof. induction e; cbn [sexpr_value]; rewrite ?sagg_R; try reflexivity; repeat match goal with H : sexpr_value _ _ _ = _ |- _ => rewrite H; clear H end; reflexivity. Qed.
  Lemma fits_R e rows : fits parse e rows -> fits parse e (List.map (relabel x) rows).
  Proof.
    induction e as [a|r|a IHa b IHb|a IHa b IHb|a IHa b IHb|a IHa b IHb|a IHa|a IHa]; cbn [fits]; auto; try tauto.
    - destruct a; auto. intros (r & Hr & H). exists (relabel x r). split; [now apply in_map|]. now rewrite sarg_R.
    - rewrite !sexpr_R. tauto.
  Qed.
  Lemma verdict_R f r : same_verdict (parse f) r -> same_verdict (parse f) (relabel x r).
  Proof. unfold same_verdict. rewrite pandas_relabel, ptest_G, stest_G by auto. auto. Qed.
  Lemma cov_R l rows : cov_same_nulls l rows -> cov_same_nulls l (List.map (relabel x) rows).
  Proof.
    assert (forall a b, (forall r, In r rows -> scell a r = None <-> scell b r = None) -> forall r, In r (List.map (relabel x) rows) -> scell a r = None <-> scell b r = None) as H.
    { intros a b H r Hr. apply in_map_iff in Hr as (r' & <- & Hr). rewrite !scell_R. auto. }
    destruct l as [[]| | |]; cbn; auto; repeat match goal with |- context [match ?o with _ => _ end] => destruct o; auto end.
  Qed.
End Inv.
