(** The query of Jackknife. *)
From Coq Require Import Reals List Bool String Arith ZArith Permutation Sorted Lia Lra.
From Verif Require Import M_Num M_Frame L_Frame M_Leaf M_Ops S_Ops L_OpsA L_OpsB L_OpsC M_Slices S_Slices L_Slices M_Jackknife S_Jackknife L_Jackknife L_Jackknife2 L_Jackknife3 L_JackSE M_SqlGlobal S_SqlGlobal L_SqlGlobal M_SqlLeaf S_SqlLeaf L_SqlLeaf L_SqlLeaf2 M_SqlOps S_SqlOps L_SqlOps L_SqlOps2 L_SqlOps5 L_SqlOps7 L_SqlSort L_SqlScope L_SqlJack2 L_SqlJack3 M_SqlJackknife S_SqlJackknife L_SqlJack1 L_SqlJack4 L_SqlJack5 L_SqlJack6.
Import ListNotations.
Open Scope string_scope.
Open Scope list_scope.

Lemma append_len a b : String.length (String.append a b) = (String.length a + String.length b)%nat.
Proof. induction a as [|c a IH]; cbn; [reflexivity|now rewrite IH]. Qed.
Lemma se_not_v v : se_name v <> v.
Proof. intros E. apply (f_equal String.length) in E. unfold se_name in E. rewrite append_len in E. cbn in E. lia. Qed.
Lemma dof_not_v v : dof_name v <> v.
Proof. intros E. apply (f_equal String.length) in E. unfold dof_name in E. rewrite append_len in E. cbn in E. lia. Qed.
Lemma dof_not_se jk v : dof_name v <> stderr_name jk v.
Proof. intros E. apply (f_equal String.length) in E. unfold dof_name, stderr_name, se_name in E. destruct jk; rewrite !append_len in E; cbn in E; lia. Qed.
Lemma stderr_not_v jk v : stderr_name jk v <> v.
Proof. intros E. apply (f_equal String.length) in E. unfold stderr_name, se_name in E. destruct jk; rewrite !append_len in E; cbn in E; lia. Qed.
Lemma Int_part_IZR z : Int_part (IZR z) = z.
Proof. unfold Int_part. rewrite <- (tech_up (IZR z) (z + 1)); [lia| |]; rewrite plus_IZR; lra. Qed.
Lemma add_cols_same b : forall a, (forall x, In x b -> In x a) -> add_cols a b = a.
Proof.
  unfold add_cols. induction b as [|x b IH]; intros a H; cbn [fold_left]; [reflexivity|]. rewrite (proj2 (mem_in x a) (H x (or_introl eq_refl))). apply IH. intros y Hy. apply H. now right.
Qed.
Lemma assoc_combine_map (ks : list string) : forall (l : skey), List.length l = List.length ks -> NoDup ks ->
  List.map (fun c => match assoc c (combine ks l) with Some x => x | None => None end) ks = l.
Proof.
  induction ks as [|c ks IH]; intros [|x l] Hl Hd; try discriminate; [reflexivity|]. inversion Hd as [|? ? Hc Hd']; subst. injection Hl as Hl. cbn [combine assoc List.map]. rewrite String.eqb_refl. f_equal.
  etransitivity; [|exact (IH l Hl Hd')]. apply map_ext_in. intros d Hd0. destruct (String.eqb_spec c d) as [->|_]; [contradiction|reflexivity].
Qed.
Lemma assoc_none (ks : list string) c : forall (l : skey), ~ In c ks -> assoc c (combine ks l) = None.
Proof. induction ks as [|d ks IH]; intros [|x l] H; cbn; try reflexivity. destruct (String.eqb_spec d c) as [->|_]; [exfalso; apply H; now left|]. apply IH. intros Hi. apply H. now right. Qed.

Section Join.
  Variables (s e : list string) (v : string).
  Hypothesis Hnd : NoDup ((s ++ [resample_idx]) ++ e).
  Hypothesis Hv : ~ In v ((s ++ [resample_idx]) ++ e).
  Notation idx' := ((s ++ [resample_idx]) ++ e).
  Notation idx := (s ++ e).
  Lemma nd_idx : NoDup idx.
  Proof. rewrite <- app_assoc in Hnd. now apply NoDup_remove_1 in Hnd. Qed.
  Lemma idx_no : ~ In resample_idx idx.
  Proof. rewrite <- app_assoc in Hnd. now apply NoDup_remove_2 in Hnd. Qed.
  Lemma v_no : ~ In v idx.
  Proof. rewrite !in_app_iff in *. tauto. Qed.
  Lemma v_idx : v <> resample_idx.
  Proof. intros ->. apply Hv. rewrite !in_app_iff. left. right. now left. Qed.
  Lemma keep (p : string -> bool) : (forall c, In c idx -> p c = true) -> filter (fun c => negb (String.eqb c resample_idx) && p c) idx' = idx.
  Proof.
    intros Hp. rewrite !filter_app. cbn [filter]. rewrite String.eqb_refl. cbn [negb andb]. rewrite app_nil_r.
    f_equal; apply filter_all; intros c Hc; rewrite Hp by (apply in_or_app; auto); rewrite andb_true_r; apply negb_true_iff, String.eqb_neq; intros ->; apply idx_no, in_or_app; auto.
  Qed.
  Lemma se_shape q : shape q idx' v -> se_groupby idx q = idx /\ se_values idx q = [v].
  Proof.
    intros (_ & _ & [[Eg Ec]|[Eg Ec]]); unfold se_groupby, se_values; rewrite Eg, Ec.
    - pose proof (keep (fun _ => true) ltac:(reflexivity)) as EK. rewrite (filter_ext _ (fun c => negb (String.eqb c resample_idx) && true)) by (intros; now rewrite andb_true_r). rewrite EK. cbn [filter].
      rewrite (proj2 (mem_false v idx) v_no), andb_false_r. cbn [negb]. rewrite andb_true_r. split; [reflexivity|]. rewrite (proj2 (String.eqb_neq _ _) v_idx). reflexivity.
    - cbn [filter]. split.
      + rewrite filter_app, (keep (fun c => mem c idx)) by (intros c Hc; now apply mem_in). cbn [filter]. rewrite (proj2 (mem_false v idx) v_no), andb_false_r, app_nil_r. rewrite add_cols_app by exact nd_idx. reflexivity.
      + rewrite filter_app. rewrite filter_none; cbn [app filter].
        * rewrite (proj2 (mem_false v idx) v_no), (proj2 (String.eqb_neq _ _) v_idx). reflexivity.
        * intros c Hc. rewrite !in_app_iff in Hc. destruct (String.eqb_spec c resample_idx) as [_|Hne]; [reflexivity|]. cbn [negb andb]. apply negb_false_iff, mem_in, in_or_app. cbn in Hc. intuition congruence.
  Qed.
  Lemma pt_shape q : shape q idx v -> add_cols idx (filter (fun c => mem c idx) (columns_of q)) = idx.
  Proof. intros _. apply add_cols_same. intros x Hx. apply filter_In in Hx as [_ Hx]. now apply mem_in. Qed.

  (** standard errors by key *)
  Variable jk : bool.
  Variables (samples : sqlq) (rows : list row).
  Hypothesis Hsh : shape samples idx' v.
  Definition reps_at (k : skey) : list (option R) := List.map (fun r => number (r v)) (filter (fun r => if skey_dec (row_key_of idx r) k then true else false) rows).
  Notation ses := (se_rows_of jk idx samples rows).
  Lemma se_at p K0 : row_key_of idx p = List.map Some K0 -> ~ In (stderr_name jk v) idx ->
    exists r, (match filter (match_using idx p) ses with [] => [(p, no_row)] | l => List.map (fun s => (p, s)) l end) = [(p, r)] /\
      number (r (stderr_name jk v)) = stderr_sql jk (reps_at (List.map Some K0)) /\
      (~ In (dof_name v) idx -> match number (r (dof_name v)) with Some d => d = IZR (sql_dof (reps_at (List.map Some K0))) | None => reps_at (List.map Some K0) = [] end).
  Proof.
    intros Hp Hse. destruct (se_shape samples Hsh) as [Eb Ev]. unfold se_rows_of. rewrite Eb, Ev. clear Eb Ev.
    set (keys := match idx with [] => [[]] | _ => nodup skey_dec (List.map (row_key_of idx) rows) end).
    set (f := fun (k : skey) (c : string) => match assoc c (combine idx k) with
               | Some l => of_label l
               | None =>
                   match filter (fun v => String.eqb c (stderr_name jk v)) [v] with
                   | v :: _ => of_number (stderr_sql jk (List.map (fun r => number (r v)) (filter (fun r => if skey_dec (row_key_of idx r) k then true else false) rows)))
                   | [] => match filter (fun v => String.eqb c (dof_name v)) [v] with
                           | v :: _ => Num (IZR (sql_dof (List.map (fun r => number (r v)) (filter (fun r => if skey_dec (row_key_of idx r) k then true else false) rows))))
                           | [] => Null
                           end
                   end
               end).
    change (exists r, match filter (match_using idx p) (List.map f keys) with [] => [(p, no_row)] | l => List.map (fun s => (p, s)) l end = [(p, r)] /\ number (r (stderr_name jk v)) = stderr_sql jk (reps_at (List.map Some K0)) /\
      (~ In (dof_name v) idx -> match number (r (dof_name v)) with Some d => d = IZR (sql_dof (reps_at (List.map Some K0))) | None => reps_at (List.map Some K0) = [] end)).
    assert (NoDup keys /\ (forall k, In k keys -> List.length k = List.length idx) /\ (forall r, In r rows -> In (row_key_of idx r) keys)) as (Hk1 & Hk2 & Hk3).
    { unfold keys. destruct idx as [|c l] eqn:E.
      - split; [constructor; [intros []|constructor]|]. split; [intros k [<-|[]]; reflexivity|]. intros r _. now left.
      - split; [apply NoDup_nodup|]. split; [|intros r Hr; apply nodup_In; now apply in_map]. intros k Hk. apply nodup_In, in_map_iff in Hk as (r & <- & _). unfold row_key_of. now rewrite map_length. }
    assert (forall k, In k keys -> row_key_of idx (f k) = k) as Hf.
    { intros k Hk. specialize (Hk2 k Hk). etransitivity; [|exact (assoc_combine_map idx k Hk2 nd_idx)]. unfold row_key_of. apply map_ext_in. intros c Hc. unfold f. destruct (assoc c (combine idx k)) as [l|] eqn:E; [apply label_of_label|].
      exfalso. clear - E Hc Hk2. revert k Hk2 E. induction idx as [|d l IH]; intros [|x k] Hl E; try discriminate; [destruct Hc|]. cbn in E. destruct (String.eqb_spec d c) as [_|Hne]; [discriminate|]. destruct Hc as [->|Hc]; [congruence|]. apply (IH Hc k); auto. }
    assert (forall k, In k keys -> match_using idx p (f k) = true <-> k = List.map Some K0) as Hm.
    { intros k Hk. rewrite match_using_mk. fold (row_key_of idx p) (row_key_of idx (f k)). rewrite Hp, (Hf k Hk). specialize (Hk2 k Hk). unfold row_key_of in Hp. apply (f_equal (@List.length _)) in Hp. rewrite !map_length in Hp. assert (List.length k = List.length K0) as Hl by congruence. clear - Hl.
      revert K0 Hl. induction k as [|x k IH]; intros [|y K0] Hl; try discriminate; [split; reflexivity|]. injection Hl as Hl. unfold mk. cbn [List.map combine forallb]. fold (mk (List.map Some K0) k). rewrite andb_true_iff, (IH K0 Hl). destruct x as [x|].
      - rewrite String.eqb_eq. split; [intros [-> ->]; reflexivity|]. intros E. injection E as -> ->. auto.
      - split; [intros [H _]; discriminate|discriminate]. }
    rewrite filter_map_comm. destruct (in_dec skey_dec (List.map Some K0) keys) as [Hi|Hi].
    - rewrite (filter_single _ keys (List.map Some K0)); [|exact Hk1|exact Hi|exact Hm]. cbn [List.map]. exists (f (List.map Some K0)). split; [reflexivity|]. split.
      + unfold f. rewrite assoc_none by exact Hse. cbn [filter]. rewrite String.eqb_refl. apply number_of_number.
      + intros Hd. unfold f. rewrite assoc_none by exact Hd. cbn [filter]. rewrite (proj2 (String.eqb_neq _ _) (dof_not_se jk v)), String.eqb_refl. reflexivity.
    - rewrite filter_none. 2:{ intros k Hk. destruct (match_using idx p (f k)) eqn:E; [|reflexivity]. apply (Hm k Hk) in E as ->. contradiction. }
      cbn [List.map]. exists no_row. split; [reflexivity|].
      assert (reps_at (List.map Some K0) = []) as E0.
      { unfold reps_at. rewrite filter_none; [reflexivity|]. intros r Hr. destruct (skey_dec _ _) as [E|_]; [|reflexivity]. exfalso. apply Hi. rewrite <- E. now apply Hk3. }
      rewrite E0. split; [now destruct jk|]. intros _. reflexivity.
  Qed.

  (** the replicates, from the rows of the query *)
  Definition sdrop1 (k : skey) : skey := firstn (List.length s) k ++ skipn (S (List.length s)) k.
  Lemma reps_perm (F : rframe) K0 : Permutation (obs idx' v rows) (List.map enc F) -> Forall (fun r => no_inf (snd r)) F ->
    Permutation (List.map fetch (reps_at (List.map Some K0))) (List.map snd (filter (fun q => key_eqb (drop_at (List.length s) (fst q)) K0) F)).
  Proof.
    intros HP HF. set (p := fun kv : skey * option R => if skey_dec (sdrop1 (fst kv)) (List.map Some K0) then true else false).
    apply (filter_perm p) in HP. apply (Permutation_map (fun kv => fetch (snd kv))) in HP. etransitivity; [|etransitivity; [exact HP|]].
    - unfold reps_at, obs. rewrite filter_map_comm, !map_map. cbn [snd]. erewrite filter_ext; [apply Permutation_refl|]. intros r. unfold p, sdrop1, row_key_of. cbn [fst].
      rewrite !map_app. rewrite <- !app_assoc. rewrite firstn_app_len by (now rewrite map_length). rewrite app_assoc, skipn_app_len by (rewrite app_length, !map_length; cbn; lia). reflexivity.
    - rewrite filter_map_comm, map_map. unfold enc. cbn [snd]. rewrite Forall_forall in HF.
      rewrite (map_ext_in (fun x => fetch (unf (snd x))) snd) by (intros q Hq; apply fetch_unf; apply filter_In in Hq as [Hq _]; now apply HF).
      erewrite filter_ext; [apply Permutation_refl|]. intros q. unfold p, sdrop1. cbn [fst]. rewrite firstn_some, skipn_some, <- map_app. fold (drop_at (List.length s) (fst q)). unfold key_eqb.
      destruct (skey_dec _ _) as [E|E], (list_eq_dec _ _ _) as [E'|E']; auto; [apply some_inj in E; contradiction|subst; congruence].
  Qed.
End Join.

(** Standard errors of the replicates [reps]: any queries for the samples and the point estimates, Jackknife or Bootstrap *)
Definition stderr_of (jk : bool) : list num -> num := if jk then jk_stderr else std_of.
Lemma stderr_present jk l l' : Permutation (present l) (present l') -> stderr_of jk l = stderr_of jk l'.
Proof. intros H. destruct jk; cbn; [now apply jk_stderr_present|]. unfold std_of. now rewrite <- (xvar_present l), <- (xvar_present l'), (xvar_perm _ _ _ H). Qed.
Lemma stddev_std l : fetch (stddev_samp l) = std_of (List.map fetch l).
Proof.
  assert (std_of (List.map fetch l) = std_of (List.map Fin (nonnull l))) as ->.
  { apply (stderr_present false). rewrite <- present_fetch. now rewrite present_present. }
  unfold stddev_samp, unless_fewer. set (L := nonnull l). destruct (Nat.ltb (List.length L) 2) eqn:E.
  - apply Nat.ltb_lt in E. unfold std_of, xvar. rewrite count_Fin. destruct (Z.leb_spec (Z.of_nat (List.length L)) 1); [reflexivity|lia].
  - apply Nat.ltb_ge in E. unfold std_of. rewrite xvar_Fin by assumption. assert (2 <= INR (List.length L))%R as HL by (apply (le_INR 2) in E; cbn in E; lra).
    rewrite L_Leaf.xsqrt_fin; [reflexivity|]. apply Rmult_le_pos; [apply spread_nonneg|]. left. apply Rinv_0_lt_compat. unfold len. lra.
Qed.
Lemma stderr_fetch jk l : fetch (stderr_sql jk l) = stderr_of jk (List.map fetch l).
Proof. destruct jk; [apply se_jk|apply stddev_std]. Qed.
Lemma stderr_nil jk : stderr_of jk [] = NaN. Proof. destruct jk; cbn; unfold std_of, jk_stderr, std_of; reflexivity. Qed.
Definition shown_se (jk : bool) (index : list string) (v : string) (rows : list row) : list (list (option string) * num * num) :=
  List.map (fun r => (List.map (fun c => label (r c)) index, fetch (number (r v)), fetch (number (r (stderr_name jk v))))) rows.
Definition bounds_se (jk : bool) (ppf : R -> Z -> num) (confidence : R) (index : list string) (v : string) (rows : list row) : list (list (option string) * num * (num * num)) :=
  List.map (fun r => (List.map (fun c => label (r c)) index, fetch (number (r v)),
    sql_ci ppf confidence (fetch (number (r v))) (fetch (number (r (stderr_name jk v)))) (option_map Int_part (number (r (dof_name v)))))) rows.
Lemma map_forall2 {A B C} (Rel : A -> B -> Prop) (f : A -> C) (g : B -> C) l l' : Forall2 Rel l l' -> (forall a b, In a l -> Rel a b -> f a = g b) -> List.map g l' = List.map f l.
Proof. induction 1 as [|a b l l' H _ IH]; intros Hf; [reflexivity|]. cbn. rewrite IH by (intros x y Hx; apply Hf; now right). f_equal. symmetry. apply Hf; [now left|exact H]. Qed.
Section Gen.
  Variables (parse : string -> cond) (srt : list okey -> list env -> list env) (s e : list string) (v : string) (jk : bool).
  Notation idx := (s ++ e).
  Hypothesis Hnd : NoDup ((s ++ [resample_idx]) ++ e).
  Hypothesis Hv : ~ In v ((s ++ [resample_idx]) ++ e).
  Hypothesis Hse : ~ In (stderr_name jk v) idx.
  Variables (samples point : sqlq) (jt pt : stable) (R P : rframe) (reps : list rframe).
  Hypothesis HR : inv parse srt jt samples ((s ++ [resample_idx]) ++ e) v R.
  Hypothesis HPt : inv parse srt pt point idx v P.
  Hypothesis Hagree : forall K, List.length K = List.length idx ->
    Permutation (present (direct_row reps K)) (present (List.map snd (filter (fun q => key_eqb (drop_at (List.length s) (fst q)) K) R))).
  Notation result := (with_se_of jk idx samples (run_sql parse srt samples jt) point (run_sql parse srt point pt)).
  Notation std := (stderr_of jk).
  Theorem main_gen : exists (rows : list row),
    Permutation (obs idx v rows) (List.map enc P) /\ Forall (fun q => no_inf (snd q)) P /\
    Forall2 (fun p out => row_key_of idx out = row_key_of idx p /\ out v = p v /\
       forall K0, row_key_of idx p = List.map Some K0 -> List.length K0 = List.length idx ->
         fetch (number (out (stderr_name jk v))) = std (direct_row reps K0) /\
         (~ In (dof_name v) idx -> match number (out (dof_name v)) with Some d => d = IZR (dof_of (direct_row reps K0)) | None => std (direct_row reps K0) = NaN end))
      rows result.
  Proof.
    destruct HR as (Rsh & _ & Rp & Rinf & Rnd & Rlen). destruct HPt as (Psh & _ & Pp & Pinf & Pnd & Plen).
    exists (run_sql parse srt point pt). split; [exact Pp|]. split; [exact Pinf|].
    unfold with_se_of. cbn zeta. set (rows := run_sql parse srt samples jt) in *.
    destruct (se_shape s e v Hnd Hv samples Rsh) as [Egb _]. rewrite Egb, (pt_shape s e v point Psh), (shape_vals _ _ _ Psh).
    assert (forall p, In p (run_sql parse srt point pt) -> exists K0, row_key_of idx p = List.map Some K0 /\ List.length K0 = List.length idx) as Hkey.
    { intros p Hp. apply (in_map (fun r => (List.map (fun c => label (r c)) idx, number (r v)))) in Hp. apply (Permutation_in _ Pp) in Hp. apply in_map_iff in Hp as (q & Eq & Hq). unfold enc in Eq. exists (fst q).
      split; [unfold row_key_of; congruence|]. rewrite Forall_forall in Plen. now apply Plen. }
    clear Pp. unfold left_join. induction (run_sql parse srt point pt) as [|p pts IH]; [constructor|]. cbn [flat_map].
    destruct (Hkey p (or_introl eq_refl)) as (K & EK & HK). destruct (se_at s e v Hnd Hv jk samples rows Rsh p K EK Hse) as (r & Er & Hse1 & Hdof1). rewrite Er. cbn [app List.map]. constructor; [|apply IH; intros p' Hp'; apply Hkey; now right].
    cbn [fst snd]. split; [|split].
    - unfold row_key_of. apply map_ext_in. intros c Hc. now rewrite (proj2 (mem_in c idx) Hc).
    - destruct (mem v idx); [reflexivity|]. cbn [mem existsb]. rewrite String.eqb_refl. reflexivity.
    - intros K0 EK0 HK0. rewrite EK in EK0. apply some_inj in EK0 as <-.
      assert (Permutation (present (List.map fetch (reps_at s e v rows (List.map Some K)))) (present (direct_row reps K))) as HPm.
      { etransitivity; [|symmetry; now apply Hagree]. unfold present. apply filter_perm. now apply reps_perm. }
      assert (forall nm, nm <> v -> ~ In nm idx -> (if mem nm idx then p nm else if mem nm [v] then p nm else r nm) = r nm) as Hnm.
      { intros nm H1 H2. rewrite (proj2 (mem_false nm idx) H2). cbn [mem existsb]. rewrite (proj2 (String.eqb_neq _ _) H1). reflexivity. }
      rewrite (Hnm _ (stderr_not_v jk v) Hse), Hse1, stderr_fetch. split; [now apply stderr_present|]. intros Hd. rewrite (Hnm _ (dof_not_v v) Hd). specialize (Hdof1 Hd). destruct (number (r (dof_name v))) as [d|].
      + rewrite Hdof1, dof_sql. f_equal. now apply dof_present.
      + rewrite Hdof1 in HPm. cbn [List.map] in HPm. change (present []) with (@nil num) in HPm. apply Permutation_nil in HPm. rewrite (stderr_present jk (direct_row reps K) []); [apply stderr_nil|]. rewrite HPm. constructor.
  Qed.
  Definition se_frame : list (list string * num * num * Z) := List.map (fun q => let l := direct_row reps (fst q) in (fst q, snd q, std l, dof_of l)) P.
  Theorem same_se : jk_same_rows (shown_se jk idx v result) se_frame /\
    (~ In (dof_name v) idx -> forall ppf confidence, jk_same_bounds ppf confidence (bounds_se jk ppf confidence idx v result) se_frame).
  Proof.
    destruct main_gen as (rows & Hp & Hinf & HF). rewrite Forall_forall in Hinf. unfold se_frame.
    assert (forall p, In p rows -> exists K0, row_key_of idx p = List.map Some K0 /\ List.length K0 = List.length idx) as Hkey.
    { intros p Hpi. apply (in_map (fun r => (List.map (fun c => label (r c)) idx, number (r v)))) in Hpi. apply (Permutation_in _ Hp) in Hpi. apply in_map_iff in Hpi as (q & Eq & Hq). unfold enc in Eq. exists (fst q).
      assert (row_key_of idx p = List.map Some (fst q)) as E by (unfold row_key_of; congruence). split; [exact E|]. apply (f_equal (@List.length _)) in E. unfold row_key_of in E. now rewrite !map_length in E. }
    set (unsome := fun k : skey => List.map (fun x : option string => match x with Some y => y | None => "" end) k).
    assert (forall K, unsome (List.map Some K) = K) as Hun by (intros K; unfold unsome; rewrite map_map; apply map_id).
    split.
    - unfold jk_same_rows, shown_se. rewrite (map_forall2 _ (fun p => (row_key_of idx p, fetch (number (p v)), std (direct_row reps (unsome (row_key_of idx p))))) _ _ _ HF).
      2:{ intros p out Hpi (H1 & H2 & H3). destruct (Hkey p Hpi) as (K & EK & HK). destruct (H3 K EK HK) as [H4 _]. fold (row_key_of idx out). rewrite H1, H2, H4, EK, Hun. reflexivity. }
      apply (Permutation_map (fun o => (fst o, fetch (snd o), std (direct_row reps (unsome (fst o)))))) in Hp. unfold obs in Hp. rewrite !map_map in Hp. cbn [fst snd] in Hp.
      etransitivity; [exact Hp|]. rewrite map_map. cbn [fst snd]. erewrite map_ext_in; [apply Permutation_refl|]. intros q Hq. cbn [enc fst snd]. rewrite Hun, fetch_unf by (now apply Hinf). reflexivity.
    - intros Hd ppf confidence. unfold jk_same_bounds, bounds_se.
      rewrite (map_forall2 _ (fun p => (row_key_of idx p, fetch (number (p v)), ci ppf confidence (fetch (number (p v))) (std (direct_row reps (unsome (row_key_of idx p)))) (dof_of (direct_row reps (unsome (row_key_of idx p)))))) _ _ _ HF).
      2:{ intros p out Hpi (H1 & H2 & H3). destruct (Hkey p Hpi) as (K & EK & HK). destruct (H3 K EK HK) as [H4 H5]. specialize (H5 Hd). fold (row_key_of idx out). rewrite H1, H2, H4, EK, Hun. f_equal.
          unfold sql_ci, ci. destruct (number (out (dof_name v))) as [d|]; cbn [option_map].
          - rewrite H5, Int_part_IZR. f_equal. apply xadd_comm.
          - unfold half_width. rewrite H5. destruct (fetch (number (p v))), (ppf _ _); reflexivity. }
      apply (Permutation_map (fun o => (fst o, fetch (snd o), ci ppf confidence (fetch (snd o)) (std (direct_row reps (unsome (fst o)))) (dof_of (direct_row reps (unsome (fst o))))))) in Hp. unfold obs in Hp. rewrite !map_map in Hp. cbn [fst snd] in Hp.
      etransitivity; [exact Hp|]. rewrite map_map. cbn [fst snd]. erewrite map_ext_in; [apply Permutation_refl|]. intros q Hq. cbn [enc fst snd]. rewrite Hun, fetch_unf by (now apply Hinf). reflexivity.
  Qed.
End Gen.

Section Main.
  Variables (parse : string -> cond) (srt : list okey -> list env -> list env) (psort : cum_how -> bool -> nat -> rframe -> rframe).
  Variables (where_ : list string) (unit : string) (m : otree) (s : list string) (t0 : stable).
  Hypothesis Hdb : db_sorts srt.
  Hypothesis Hps : pandas_sorts psort.
  Hypothesis Hparse : forall f, ~ In resample_idx (cond_labels (parse f)).
  Hypothesis Hsup : supported_tree (s ++ [resample_idx]) m.
  Hypothesis Hse : ~ In (se_name (value_name m)) (s ++ extra_idx m).
  Hypothesis Hwhere : forall f r, In f where_ -> In r t0 -> same_verdict (parse f) r.
  Notation t := (filter (spass parse where_) t0).
  Hypothesis Hunit : forall r, In r t -> slab r unit <> None.
  Hypothesis Hpoint : child_fits parse psort m s t.
  Hypothesis Hparts : forall k x, unit_in s unit k x t -> left_out s unit k x t <> [] ->
    child_fits parse psort m [] (left_out s unit k x t) /\ every_leaf_has_rows parse m (left_out s unit k x t).
  Hypothesis Hex : exists k x, unit_in s unit k x t /\ left_out s unit k x t <> [].
  Notation v := (value_name m).
  Notation idx := (s ++ extra_idx m).

  Lemma where_pandas : filter (pfilters parse where_) (pandas_table t0) = pandas_table t.
  Proof. unfold pandas_table. rewrite filter_map_comm. f_equal. apply filter_ext_in. intros r Hr. apply verdict_filters. intros f Hf. now apply Hwhere. Qed.
  Lemma bottom_exists wh m' : forall by_ ab lc, exists b fs l e', In (b, fs, l, by_ ++ e') (bottoms wh m' by_ ab lc).
  Proof.
    induction m' as [mm name|over ch IH w|over how asc ch IH w|p over base incl ch IH w|d over ch IH w|op x IHa y IHb name w|op x ch IH name w|op ch IH x name w]; intros by_ ab lc; cbn [bottoms];
      try (destruct (IH (by_ ++ over) (ab ++ w) (remove (add (add [] w) lc) wh)) as (b & fs & l & e' & H); rewrite <- app_assoc in H; exists b, fs, l, (over ++ e'); exact H); try (apply IH; fail).
    - exists mm, ab, lc, []. rewrite app_nil_r. now left.
    - edestruct IHa as (b & fs & l & e' & H). exists b, fs, l, e'. apply in_or_app. left. exact H.
  Qed.
  Lemma split_labels r c : In r t -> In c s -> slab r c <> None.
  Proof.
    intros Hr Hc. destruct Hpoint as [Hf _]. destruct (bottom_exists [] m s [] []) as (b & fs & l & e' & H). destruct (Hf _ _ _ _ H) as (_ & H2 & _). apply (H2 r c Hr); [reflexivity|]. apply in_or_app. auto.
  Qed.
  Lemma full_index : NoDup ((s ++ [resample_idx]) ++ extra_idx m) /\ ~ In v ((s ++ [resample_idx]) ++ extra_idx m).
  Proof. split; [now apply nodup_index|]. destruct m; apply Hsup. Qed.

  (** the rows of the query and those of pandas; the samples and the point estimates come from any queries that give the
      results of the child *)
  Section Queries.
  Variables (samples point : sqlq) (jt pt : stable) (R P : rframe).
  Hypothesis ER : op_compute parse psort m (s ++ [resample_idx]) (pandas_table (jk_general s unit t)) = Some R.
  Hypothesis HR : inv parse srt jt samples ((s ++ [resample_idx]) ++ extra_idx m) v R.
  Hypothesis EP : op_compute parse psort m s (pandas_table t) = Some P.
  Hypothesis HPt : inv parse srt pt point idx v P.
  Notation result := (with_se idx samples (run_sql parse srt samples jt) point (run_sql parse srt point pt)).
  Theorem same_gen : exists F, jackknife_pandas parse psort where_ unit m s (pandas_table t0) = Some F /\
    jk_same_rows (jk_shown idx v result) F /\
    (~ In (dof_name v) idx -> forall ppf confidence, jk_same_bounds ppf confidence (jk_bounds ppf confidence idx v result) F).
  Proof.
    destruct full_index as [Hnd Hv]. pose proof split_labels as Hlab.
    destruct (replicates_exist parse psort m s unit t Hps Hparse Hsup Hunit Hlab Hparts Hex) as (r0 & reps & Ereps).
    unfold jackknife_pandas. rewrite where_pandas, EP, Ereps. eexists. split; [reflexivity|].
    apply (same_se parse srt s (extra_idx m) v true Hnd Hv Hse samples point jt pt R P (r0 :: reps) HR HPt).
    intros K HK. destruct HR as (_ & _ & _ & _ & Rnd & _).
    pose proof (replicates_agree parse psort m s unit t Hps Hparse Hsup Hunit Hlab Hparts Hex R (r0 :: reps) (firstn (List.length s) K) (skipn (List.length s) K) ER Rnd Ereps) as HA. rewrite firstn_skipn in HA.
    apply HA. apply firstn_length_le. rewrite HK, app_length. lia.
  Qed.
  End Queries.

  Theorem same : exists F, jackknife_pandas parse psort where_ unit m s (pandas_table t0) = Some F /\
    jk_same_rows (jk_shown idx v (jackknife_sql parse srt where_ unit m s t0)) F /\
    (~ In (dof_name v) idx -> forall ppf confidence, jk_same_bounds ppf confidence (jk_bounds ppf confidence idx v (jackknife_sql parse srt where_ unit m s t0)) F).
  Proof.
    pose proof split_labels as Hlab. destruct (jk_samples parse psort m s unit t Hps Hparse Hsup Hunit Hlab Hparts Hex srt Hdb) as (R & ER & HR).
    destruct (tree_step parse srt psort t Hdb Hps [] m s [] []) as (P & EP & HPt & _); [exact (proj1 Hpoint)|exact (sup_s m s Hsup)|apply placed_nil|rewrite no_filters; exact (proj2 Hpoint)|]. rewrite no_filters in EP.
    exact (same_gen _ _ _ _ R P ER HR EP HPt).
  Qed.
End Main.
