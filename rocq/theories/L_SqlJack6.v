(** The replicates of pandas are the groups of the resampled table; standard errors. *)
From Coq Require Import Reals List Bool String Arith ZArith Permutation Sorted Lia Lra.
From Verif Require Import M_Num M_Frame L_Frame M_Leaf M_Ops S_Ops L_OpsA L_OpsB L_OpsC M_Slices S_Slices L_Slices M_Jackknife S_Jackknife L_Jackknife L_Jackknife2 L_Jackknife3 L_JackSE M_SqlGlobal S_SqlGlobal L_SqlGlobal M_SqlLeaf S_SqlLeaf L_SqlLeaf L_SqlLeaf2 M_SqlOps S_SqlOps L_SqlOps L_SqlOps7 L_SqlSort L_SqlScope L_SqlJack2 L_SqlJack3 M_SqlJackknife S_SqlJackknife L_SqlJack1 L_SqlJack4 L_SqlJack5.
Import ListNotations.
Open Scope string_scope.
Open Scope list_scope.

(** ** No rows *)
Section Nil.
  Variables (parse : string -> cond) (psort : cum_how -> bool -> nat -> rframe -> rframe).
  Hypothesis Hps : pandas_sorts psort.
  Lemma compute_nil m by_ : by_ <> [] -> compute parse m by_ [] = [].
  Proof.
    intros Hb. induction m as [l w|op a IHa b IHb w|op r a IHa w|op a IHa r w|a IHa w|a IHa w]; cbn [compute filter]; rewrite ?IHa, ?IHb; try reflexivity.
    unfold compute_leaf, group_keys. destruct by_ as [|c by_]; [congruence|]. reflexivity.
  Qed.
  Lemma op_nil m : forall by_ D, by_ <> [] -> op_compute parse psort m by_ [] = Some D -> D = [].
  Proof.
    induction m as [m name|over ch IH w|over how asc ch IH w|p cond base incl ch IH w|d over ch IH w|op x IHa y IHb name w|op x ch IH name w|op ch IH x name w];
      intros by_ D Hb H; cbn [op_compute filter] in H.
    - injection H as <-. now apply compute_nil.
    - destruct (op_compute parse psort ch (by_ ++ over) []) as [F|] eqn:E; [|discriminate]. apply IH in E as ->; [|destruct by_; [congruence|discriminate]]. now injection H as <-.
    - destruct (op_compute parse psort ch (by_ ++ over) []) as [F|] eqn:E; [|discriminate]. apply IH in E as ->; [|destruct by_; [congruence|discriminate]]. cbn [option_map] in H.
      injection H as <-. unfold cumulative_distribution. cbn [distribution List.map].
      assert (forall h, psort h asc (List.length by_) [] = []) as E. { intros h. destruct (Hps h asc (List.length by_) []) as [P _]; [intros _ r []|]. now apply Permutation_sym, Permutation_nil in P. }
      destruct by_ as [|b0 by_]; [congruence|]. cbn [List.length] in *.
      assert (forall o, flat_map (fun o : string => filter (fun r : key * num => key_eqb (firstn 1 (skipn (S (List.length by_)) (fst r))) [o]) []) o = @nil (key * num)) as E'.
      { induction o as [|x o IHo]; [reflexivity|exact IHo]. }
      destruct how; unfold reindex_order; rewrite ?E, ?E'; reflexivity.
    - destruct (op_compute parse psort ch (by_ ++ cond) []) as [F|] eqn:E; [|discriminate]. apply IH in E as ->; [|destruct by_; [congruence|discriminate]]. destruct p; discriminate.
    - destruct (op_compute parse psort ch (by_ ++ over) []) as [F|] eqn:E; [|discriminate]. apply IH in E as ->; [|destruct by_; [congruence|discriminate]]. cbn [option_map] in H. injection H as <-.
      destruct by_ as [|b0 by_]; [congruence|]. destruct d; reflexivity.
    - destruct (op_compute parse psort x by_ []) as [fa|] eqn:Ea; [|discriminate]. destruct (op_compute parse psort y by_ []) as [fb|] eqn:Eb; [|discriminate]. apply IHa in Ea as ->; [|exact Hb]. apply IHb in Eb as ->; [|exact Hb].
      injection H as <-. unfold align_levels. destruct (Nat.compare _ _); reflexivity.
    - destruct (op_compute parse psort ch by_ []) as [F|] eqn:E; [|discriminate]. apply IH in E as ->; [|exact Hb]. now injection H as <-.
    - destruct (op_compute parse psort ch by_ []) as [F|] eqn:E; [|discriminate]. apply IH in E as ->; [|exact Hb]. now injection H as <-.
  Qed.
End Nil.

(** ** Standard errors *)
Lemma present_fetch l : present (List.map fetch l) = List.map Fin (nonnull l).
Proof. induction l as [|[x|] l IH]; [reflexivity| |exact IH]. cbn. now rewrite <- IH. Qed.
Lemma se_jk l : fetch (se_of l) = jk_stderr (List.map fetch l).
Proof.
  assert (jk_stderr (List.map fetch l) = jk_stderr (List.map Fin (nonnull l))) as ->.
  { apply jk_stderr_present. rewrite <- present_fetch. now rewrite present_present. }
  unfold se_of, stddev_samp, unless_fewer. set (L := nonnull l). destruct (Nat.ltb (List.length L) 2) eqn:E.
  - apply Nat.ltb_lt in E. rewrite jk_too_few; [reflexivity|]. rewrite count_Fin. exact E.
  - apply Nat.ltb_ge in E. rewrite jk_formula by assumption. assert (2 <= INR (List.length L))%R as HL by (apply (le_INR 2) in E; cbn in E; lra).
    assert (0 < sqrt (INR (List.length L)))%R as Hs by (apply sqrt_lt_R0; lra).
    unfold vdiv. assert (Reqb (sqrt (INR (List.length L))) 0 = false) as ->. { unfold Reqb. destruct (Req_EM_T _ _); [lra|reflexivity]. }
    cbn [option_map lift2 fetch]. f_equal. assert (dev L = spread L) as -> by reflexivity. fold (len L) in *. pose proof (spread_nonneg L) as Hp. set (n := len L) in *. set (d := spread L) in *.
    assert (0 <= d / (n - 1))%R as H1 by (apply Rmult_le_pos; [exact Hp|left; apply Rinv_0_lt_compat; lra]).
    rewrite <- (sqrt_square ((n - 1) / sqrt n)) by (apply Rmult_le_pos; [lra|left; apply Rinv_0_lt_compat; exact Hs]).
    rewrite <- sqrt_mult; [f_equal|exact H1|apply Rle_0_sqr]. assert (sqrt n * sqrt n = n)%R as Hn by (apply sqrt_sqrt; lra).
    replace ((n - 1) / sqrt n * ((n - 1) / sqrt n))%R with ((n - 1) * (n - 1) / (sqrt n * sqrt n))%R by (field; lra). rewrite Hn. field. lra.
Qed.
Lemma dof_sql l : sql_dof l = dof_of (List.map fetch l).
Proof. unfold sql_dof, dof_of, count_present. change (filter (fun x => negb (is_nan x)) (List.map fetch l)) with (present (List.map fetch l)). now rewrite present_fetch, map_length. Qed.
Lemma dof_present l l' : Permutation (present l) (present l') -> dof_of l = dof_of l'.
Proof. intros H. unfold dof_of. change (count_present l) with (List.length (present l)). change (count_present l') with (List.length (present l')). now rewrite (Permutation_length H). Qed.

(** ** Units *)
Section Units.
  Variables (s : list string) (u : string) (df : table).
  Hypothesis Hu : forall r, In r df -> lab r u <> None.
  Lemma units_In x : In x (loo_units s u df) -> exists y, x = Some y /\ exists r, In r df /\ lab r u = Some y.
  Proof.
    unfold loo_units. destruct s as [|c s'].
    - unfold units_of. rewrite units_from_In. intros [_ [r [Hr E]]]. destruct x as [y|]; [eauto|]. destruct (Hu r Hr E).
    - rewrite in_map_iff. intros [k [<- Hk]]. rewrite sort_uniq_In, L_Slices.keys_of_In in Hk. destruct Hk as [r [Hr E]]. simpl in E.
      destruct (lab r u) as [y|] eqn:Ey; [|discriminate]. injection E as <-. simpl. eauto.
  Qed.
  Lemma units_all r y : In r df -> lab r u = Some y -> In (Some y) (loo_units s u df).
  Proof.
    intros Hr E. unfold loo_units. destruct s as [|c s'].
    - unfold units_of. apply units_from_In. simpl. split; [tauto|eauto].
    - apply in_map_iff. exists [y]. split; auto. rewrite sort_uniq_In, L_Slices.keys_of_In. exists r. split; auto. simpl. now rewrite E.
  Qed.
  Lemma units_NoDup : NoDup (loo_units s u df).
  Proof.
    unfold loo_units. destruct s as [|c s']; [apply units_from_NoDup|].
    assert (NoDup (sort_uniq (keys_of [u] df))) as HN by (apply L_Frame.ksorted_NoDup, sort_uniq_sorted).
    assert (forall k, In k (sort_uniq (keys_of [u] df)) -> exists y, k = [y]) as H1.
    { intros k Hk. rewrite sort_uniq_In, L_Slices.keys_of_In in Hk. destruct Hk as [r [_ E]]. apply row_key_length in E. destruct k as [|y [|? ?]]; try discriminate. eauto. }
    induction HN as [|k l Hk HN IH]; simpl; constructor.
    - intros H. apply in_map_iff in H as [k' [E Hk']]. destruct (H1 k (or_introl eq_refl)) as [y ->]. destruct (H1 k' (or_intror Hk')) as [y' ->].
      simpl in E. injection E as ->. contradiction.
    - apply IH. intros k' Hk'. apply H1. now right.
  Qed.
  Lemma two_units r1 r2 : In r1 df -> In r2 df -> lab r1 u <> lab r2 u -> Nat.ltb (List.length (units_of u df)) 2 = false.
  Proof.
    intros H1 H2 Hne. apply Nat.ltb_ge. assert (NoDup [lab r1 u; lab r2 u]) as Hn. { constructor; [intros [E|[]]; congruence|]. constructor; [intros []|constructor]. }
    apply (NoDup_incl_length Hn). intros x [<-|[<-|[]]]; apply units_from_In; (split; [intros []|eauto]).
  Qed.
End Units.

Section Samples.
  Variables (parse : string -> cond) (psort : cum_how -> bool -> nat -> rframe -> rframe) (m : otree) (s : list string) (unit : string) (t : stable).
  Hypothesis Hps : pandas_sorts psort.
  Hypothesis Hparse : forall f, ~ In resample_idx (cond_labels (parse f)).
  Hypothesis Hsup : supported_tree (s ++ [resample_idx]) m.
  Hypothesis Hunit : forall r, In r t -> slab r unit <> None.
  Hypothesis Hlab : forall r c, In r t -> In c s -> slab r c <> None.
  Hypothesis Hparts : forall k x, unit_in s unit k x t -> left_out s unit k x t <> [] ->
    child_fits parse psort m [] (left_out s unit k x t) /\ every_leaf_has_rows parse m (left_out s unit k x t).
  Hypothesis Hex : exists k x, unit_in s unit k x t /\ left_out s unit k x t <> [].
  Notation lo := (fun k x => left_out s unit k x t).
  Notation df := (pandas_table t).
  Notation n := (List.length s).

  Lemma df_unit r : In r df -> lab r unit <> None.
  Proof. intros H. apply in_map_iff in H as (r' & <- & H). now apply Hunit. Qed.
  Lemma occurs_unit k x : occurs s unit k x df <-> unit_in s unit k x t.
  Proof.
    unfold occurs, unit_in. split; intros (r & Hr & E1 & E2).
    - apply in_map_iff in Hr as (r' & <- & Hr). exists r'. split; [exact Hr|]. split; [now apply row_key_pandas|exact E2].
    - exists (pandas_row r). split; [now apply in_map|]. split; [now apply row_key_pandas|exact E2].
  Qed.
  Lemma without_pandas k x : without unit x (slice s k df) = pandas_table (lo k x).
  Proof.
    rewrite slice_pandas. unfold without, pandas_table, left_out, M_SqlLeaf.group. rewrite filter_map_comm, L_SqlLeaf2.filter_filter. f_equal. apply filter_ext. intros r. f_equal. cbn.
    destruct (label_dec (slab r unit) (Some x)) as [E|E]; destruct (slab r unit) as [y|]; try congruence; destruct (string_dec y x); cbn; try congruence.
  Qed.
  Lemma table_nil (T : table) : (forall r, In r T -> exists k, row_key s r = Some k) -> (forall k, slice s k T = []) -> T = [].
  Proof.
    intros H1 H2. destruct T as [|r T]; [reflexivity|]. destruct (H1 r (or_introl eq_refl)) as [k Hk]. specialize (H2 k). assert (In r (slice s k (r :: T))) as Hi; [|rewrite H2 in Hi; destruct Hi].
    apply slice_In. split; [now left|exact Hk].
  Qed.
  Lemma sample_incl x r : In r (loo_sample s unit df x) -> In r df.
  Proof.
    unfold loo_sample. intros H. destruct s; [now apply filter_In in H|]. destruct (Nat.eqb _ _); [now apply filter_In in H|]. apply filter_In in H as [H _]. now apply filter_In in H.
  Qed.
  Lemma exists_or (T : table) : (exists k, slice s k T <> []) \/ (forall k, slice s k T = []).
  Proof.
    destruct (keys_of s T) as [|k l] eqn:E.
    - right. intros k. destruct (slice s k T) as [|r l] eqn:Es; [reflexivity|]. assert (In k (keys_of s T)) as Hi; [|rewrite E in Hi; destruct Hi]. apply L_Slices.keys_of_In. exists r. apply slice_In. rewrite Es. now left.
    - left. exists k. assert (In k (keys_of s T)) as Hi by (rewrite E; now left). apply L_Slices.keys_of_In in Hi as (r & Hr & Hk). intros Es. assert (In r (slice s k T)) as Hi by (now apply slice_In). rewrite Es in Hi. destruct Hi.
  Qed.

  (** one unit left out by pandas *)
  Lemma sample_value R x k g : op_compute parse psort m (s ++ [resample_idx]) (pandas_table (jk_general s unit t)) = Some R ->
    List.length k = n -> (exists r, In r t /\ slab r unit = Some x) ->
    match op_compute parse psort m s (loo_sample s unit df (Some x)) with
    | Some D => lookup (k ++ g) D = lookup (k ++ x :: g) R
    | None => lookup (k ++ x :: g) R = NaN
    end.
  Proof.
    intros ER Hk Hx. destruct (jk_whole parse psort m s unit t Hps Hparse Hsup Hunit Hlab Hparts Hex) as (R' & ER' & Hr & Hkeys & _). rewrite ER in ER'. injection ER' as <-.
    assert (~ (unit_in s unit k x t /\ lo k x <> []) -> lookup (k ++ x :: g) R = NaN) as Hnone.
    { intros Hn. apply lookup_None. intros Hi. apply in_map_iff in Hi as ([q v] & E & Hi). cbn [fst] in E. subst q. destruct (Hkeys _ Hi) as (k' & x' & g' & E & Hu & Hne). cbn [fst] in E.
      pose proof (jk_len s unit t k' x' Hu) as Hl. rewrite !app_length in Hl. cbn in Hl. destruct (app_len_inj k k' (x :: g) (x' :: g')) as [E1 E2]; [lia|exact E|]. injection E2 as E2 _. subst. now apply Hn. }
    assert (forall D, (restrict n k D = restrict (S n) (k ++ [x]) R) -> lookup (k ++ g) D = lookup (k ++ x :: g) R) as Heq.
    { intros D E. rewrite <- (lookup_restrict n k g D Hk), E, lookup_restrict by (rewrite app_length; cbn; lia). now rewrite <- app_assoc. }
    destruct (list_eq_dec string_dec s []) as [Es|Hs].
    - assert (k = []) as -> by (destruct k; [reflexivity|rewrite Es in Hk; discriminate]).
      assert (unit_in s unit [] x t) as Hu. { destruct Hx as (r & Hr1 & Hr2). exists r. rewrite Es. auto. }
      assert (loo_sample s unit df (Some x) = pandas_table (lo [] x)) as EL.
      { rewrite <- without_pandas. unfold loo_sample. rewrite Es. rewrite is_unit_without. f_equal. symmetry. apply filter_all. reflexivity. }
      rewrite EL. assert (lo [] x <> []) as Hne.
      { destruct Hex as (k0 & x0 & (r0 & H1 & H2 & H3) & Hne0). assert (k0 = []) as -> by (rewrite Es in H2; cbn in H2; now destruct k0). cbn beta. intros E.
        destruct (string_dec x0 x) as [->|Hd]; [contradiction|]. assert (In r0 (left_out s unit [] x t)) as Hi; [|rewrite E in Hi; destruct Hi]. apply left_out_in. split; [exact H1|]. split; [exact H2|]. rewrite H3. congruence. }
      pose proof (Hr [] x Hu Hne) as E. replace (op_compute parse psort m s) with (op_compute parse psort m []) by (now rewrite Es). rewrite E. apply Heq.
      assert (n = O) as En by (now rewrite Es). rewrite En. unfold restrict at 1. cbn [firstn skipn]. rewrite filter_all by reflexivity. rewrite <- map_id. apply map_ext. intros [q v]. reflexivity.
    - set (T := loo_sample s unit df (Some x)). destruct (exists_or T) as [He|He].
      + assert (parts parse psort m s [] T) as HP.
        { intros k' Hk'. pose proof (slice_len _ _ _ Hk') as Hl'. assert (occurs s unit k' x df) as Ho.
          { destruct (existsb (fun r => is_unit unit (Some x) r && has_key s k' r) df) eqn:E; [now apply occurs_existsb|]. exfalso. apply Hk'. apply sample_not_here; auto. intros Ho. apply occurs_existsb in Ho. congruence. }
          unfold T in *. rewrite (sample_here s unit df x k' Ho Hl'), without_pandas in *. apply occurs_unit in Ho.
          assert (lo k' x <> []) as Hne by (cbn beta; intros E; rewrite E in Hk'; now apply Hk'). destruct (Hparts k' x Ho Hne) as [H1 H2].
          apply (part_ok parse psort m s Hps Hsup _ H1 H2). }
        pose proof (lift parse psort Hps m s [] T Hs He) as HL. rewrite app_nil_r in HL. destruct (HL (sup_s m s Hsup) HP) as (_ & D & ED & HD & HK). rewrite app_nil_r in ED. rewrite ED.
        destruct (slice s k T) as [|r0 rows] eqn:Esl.
        * rewrite Hnone; [apply lookup_None|].
          -- intros Hi. apply in_map_iff in Hi as ([q v] & E & Hi). cbn [fst] in E. subst q. apply HK in Hi. cbn [fst] in Hi. rewrite firstn_app_len in Hi by assumption. now apply Hi.
          -- intros (Hu & Hne). apply occurs_unit in Hu. unfold T in Esl. rewrite (sample_here s unit df x k Hu Hk), without_pandas in Esl. cbn beta in Hne. destruct (left_out s unit k x t); [congruence|discriminate].
        * apply Heq. assert (slice s k T <> []) as Hne by (rewrite Esl; discriminate). pose proof (HD k Hne) as E1.
          assert (occurs s unit k x df) as Ho.
          { destruct (existsb (fun r => is_unit unit (Some x) r && has_key s k r) df) eqn:E; [now apply occurs_existsb|]. exfalso. apply Hne. apply sample_not_here; auto. intros Ho. apply occurs_existsb in Ho. congruence. }
          unfold T in E1, Hne. rewrite (sample_here s unit df x k Ho Hk), without_pandas in E1, Hne. apply occurs_unit in Ho.
          assert (lo k x <> []) as Hlo by (cbn beta; intros E; rewrite E in Hne; now apply Hne). rewrite (Hr k x Ho Hlo) in E1. now injection E1.
      + assert (T = []) as ET.
        { apply table_nil; [|exact He]. intros r Hr'. apply sample_incl in Hr'. apply in_map_iff in Hr' as (r' & <- & Hr'). destruct (key_here s t Hlab r' Hr') as [k' Ek]. exists k'. now apply row_key_pandas. }
        assert (lookup (k ++ x :: g) R = NaN) as EN.
        { apply Hnone. intros (Hu & Hne). apply occurs_unit in Hu. specialize (He k). unfold T in He. rewrite (sample_here s unit df x k Hu Hk), without_pandas in He. cbn beta in Hne. destruct (left_out s unit k x t); [congruence|discriminate]. }
        rewrite ET, EN. destruct (op_compute parse psort m s []) as [D|] eqn:E; [|reflexivity]. apply op_nil in E as ->; [reflexivity|exact Hps|exact Hs].
  Qed.

  (** the values of one row: pandas has one column per unit, the table one row per unit that has one *)
  Lemma replicates_agree R reps k g : op_compute parse psort m (s ++ [resample_idx]) (pandas_table (jk_general s unit t)) = Some R -> NoDup (List.map fst R) ->
    op_replicates parse psort m s unit df = Some reps -> List.length k = n ->
    Permutation (present (direct_row reps (k ++ g))) (present (List.map snd (filter (fun q => key_eqb (drop_at n (fst q)) (k ++ g)) R))).
  Proof.
    intros ER HN HD Hk. destruct (jk_whole parse psort m s unit t Hps Hparse Hsup Hunit Hlab Hparts Hex) as (R' & ER' & Hr & Hkeys & _). rewrite ER in ER'. injection ER' as <-.
    set (V := fun x : option string => match x with Some y => lookup (k ++ y :: g) R | None => NaN end).
    assert (present (direct_row reps (k ++ g)) = present (List.map V (loo_units s unit df))) as ->.
    { unfold op_replicates in HD. destruct (Nat.ltb _ 2); [discriminate|]. injection HD as <-. unfold direct_row.
      assert (forall l, incl l (loo_units s unit df) ->
        present (List.map (lookup (k ++ g)) (flat_map (fun x => match op_compute parse psort m s (loo_sample s unit df x) with Some r => [r] | None => [] end) l)) = present (List.map V l)) as H; [|apply H, incl_refl].
      induction l as [|x l IH]; intros Hi; auto. cbn [flat_map List.map]. rewrite map_app, present_app, IH by (intros z Hz; apply Hi; now right).
      change (V x :: List.map V l) with ([V x] ++ List.map V l). rewrite present_app. f_equal.
      destruct (units_In s unit df df_unit x) as [y [-> (r & Hr1 & Hr2)]]; [apply Hi; now left|]. cbn [V].
      pose proof (sample_value R y k g ER Hk) as HV. destruct (op_compute parse psort m s (loo_sample s unit df (Some y))) as [D|] eqn:E; cbn [List.map].
      - rewrite HV; [reflexivity|]. apply in_map_iff in Hr1 as (r' & <- & Hr1). exists r'. auto.
      - rewrite HV; [reflexivity|]. apply in_map_iff in Hr1 as (r' & <- & Hr1). exists r'. auto. }
    set (sel := filter (fun q => key_eqb (drop_at n (fst q)) (k ++ g)) R).
    assert (forall q, In q sel -> exists y, fst q = k ++ y :: g /\ In (Some y) (loo_units s unit df)) as Hsel.
    { intros q Hq. apply filter_In in Hq as [Hq E]. apply key_eqb_eq in E. destruct (Hkeys q Hq) as (k' & y & g' & Eq & Hu & _). pose proof (jk_len s unit t k' y Hu) as Hl. rewrite !app_length in Hl. cbn in Hl.
      rewrite Eq in E. unfold drop_at in E. rewrite firstn_app_len in E by lia. change (k' ++ y :: g') with (k' ++ [y] ++ g') in E. rewrite app_assoc, skipn_app_len in E by (rewrite app_length; cbn; lia).
      destruct (app_len_inj k' k g' g) as [-> ->]; [lia|exact E|]. exists y. split; [exact Eq|]. destruct Hu as (r & Hr1 & _ & Hr2). apply (units_all s unit df (pandas_row r)); [now apply in_map|exact Hr2]. }
    set (lbl := fun q : key * num => hd_error (skipn n (fst q))).
    assert (List.map snd sel = List.map V (List.map lbl sel)) as ->.
    { rewrite map_map. apply map_ext_in. intros q Hq. destruct (Hsel q Hq) as (y & Eq & _). unfold lbl. rewrite Eq, skipn_app_len by assumption. cbn [hd_error V]. symmetry. apply lookup_In; [exact HN|].
      apply filter_In in Hq as [Hq _]. rewrite <- Eq. now destruct q. }
    apply present_units.
    - apply units_NoDup.
    - assert (NoDup (List.map fst sel)) as Hn1 by (apply NoDup_map_filter; exact HN).
      clear - Hn1 Hsel Hk. induction sel as [|q l IH]; cbn [List.map] in *; [constructor|]. inversion Hn1 as [|? ? Hq Hn2]; subst. constructor; [|apply IH; auto; intros z Hz; apply Hsel; now right].
      intros Hi. apply in_map_iff in Hi as (q' & E & Hi). apply Hq. destruct (Hsel q (or_introl eq_refl)) as (y & Eq & _). destruct (Hsel q' (or_intror Hi)) as (y' & Eq' & _). unfold lbl in E. rewrite Eq, Eq', !skipn_app_len in E by assumption.
      cbn in E. injection E as ->. rewrite Eq, <- Eq'. now apply in_map.
    - intros x Hx. apply in_map_iff in Hx as (q & <- & Hq). destruct (Hsel q Hq) as (y & Eq & Hy). unfold lbl. now rewrite Eq, skipn_app_len by assumption.
    - intros x Hx Hn. destruct (units_In s unit df df_unit x Hx) as [y [-> _]]. cbn [V]. apply lookup_None. intros Hi. apply in_map_iff in Hi as ([q v] & E & Hi). cbn [fst] in E. subst q. apply Hn. apply in_map_iff. exists (k ++ y :: g, v). split.
      + unfold lbl. cbn [fst]. now rewrite skipn_app_len by assumption.
      + apply filter_In. split; [exact Hi|]. cbn [fst]. apply key_eqb_eq. unfold drop_at. rewrite firstn_app_len by assumption. f_equal. change (k ++ y :: g) with (k ++ [y] ++ g). rewrite app_assoc. apply skipn_app_len. rewrite app_length. cbn. lia.
  Qed.
  Lemma replicates_exist : exists r0 reps, op_replicates parse psort m s unit df = Some (r0 :: reps).
  Proof.
    destruct (jk_whole parse psort m s unit t Hps Hparse Hsup Hunit Hlab Hparts Hex) as (R & ER & Hr & Hkeys & _). destruct Hex as (k & x & Hu & Hne). pose proof Hu as (r1 & H1 & H2 & H3).
    unfold op_replicates. destruct (left_out s unit k x t) as [|r2 l] eqn:E2; [congruence|]. assert (In r2 (left_out s unit k x t)) as Hr2 by (rewrite E2; now left). apply left_out_in in Hr2 as (Hr2 & Hk2 & Hx2).
    rewrite (two_units unit df (pandas_row r1) (pandas_row r2)); [|now apply in_map|now apply in_map|cbn; congruence].
    assert (exists D, op_compute parse psort m s (loo_sample s unit df (Some x)) = Some D) as (D & ED).
    { assert (List.length k = n) as Hk by (apply (f_equal (@List.length _)) in H2; unfold srow_key in H2; now rewrite !map_length in H2).
      pose proof Hu as Ho. apply occurs_unit in Ho. pose proof (sample_here s unit df x k Ho Hk) as Es. rewrite without_pandas in Es.
      destruct (list_eq_dec string_dec s []) as [E0|Hs].
      - assert (loo_sample s unit df (Some x) = pandas_table (lo k x)) as ->.
        { rewrite <- Es. symmetry. apply filter_all. intros z _. unfold has_key. rewrite E0. cbn. destruct k; [reflexivity|rewrite E0 in Hk; discriminate]. }
        replace (op_compute parse psort m s) with (op_compute parse psort m []) by (now rewrite E0). exists (restrict (S n) (k ++ [x]) R). apply Hr; [exact Hu|]. cbn beta. rewrite E2. discriminate.
      - set (T := loo_sample s unit df (Some x)). assert (exists k, slice s k T <> []) as He by (exists k; unfold T; rewrite Es; cbn beta; rewrite E2; discriminate).
        assert (parts parse psort m s [] T) as HP.
        { intros k' Hk'. pose proof (slice_len _ _ _ Hk') as Hl'. assert (occurs s unit k' x df) as Ho'.
          { destruct (existsb (fun r => is_unit unit (Some x) r && has_key s k' r) df) eqn:E; [now apply occurs_existsb|]. exfalso. apply Hk'. apply sample_not_here; auto. intros Ho'. apply occurs_existsb in Ho'. congruence. }
          unfold T in *. rewrite (sample_here s unit df x k' Ho' Hl'), without_pandas in *. apply occurs_unit in Ho'.
          assert (lo k' x <> []) as Hne' by (cbn beta; intros E; rewrite E in Hk'; now apply Hk'). destruct (Hparts k' x Ho' Hne') as [HA HB].
          apply (part_ok parse psort m s Hps Hsup _ HA HB). }
        pose proof (lift parse psort Hps m s [] T Hs He) as HL. rewrite app_nil_r in HL. destruct (HL (sup_s m s Hsup) HP) as (_ & D & ED & _). rewrite app_nil_r in ED. eauto. }
    assert (In D (flat_map (fun x => match op_compute parse psort m s (loo_sample s unit df x) with Some r => [r] | None => [] end) (loo_units s unit df))) as Hi.
    { apply in_flat_map. exists (Some x). split; [|rewrite ED; now left]. apply (units_all s unit df (pandas_row r1)); [now apply in_map|exact H3]. }
    destruct (flat_map _ _) as [|r0 reps]; [destruct Hi|eauto].
  Qed.
End Samples.
