(** The join with the baseline and the sums per group. *)
From Coq Require Import Reals List Bool String Arith Permutation Lia Lra.
From Verif Require Import M_Num M_Frame L_Frame M_Ops S_Ops L_OpsA L_OpsB M_SqlGlobal M_SqlLeaf S_SqlLeaf L_SqlLeaf L_SqlLeaf2 M_SqlOps S_SqlOps L_SqlOps L_SqlOps2 L_SqlOps5 L_SqlBin L_SqlBin3 M_SqlList S_SqlList M_SqlJackknife M_SqlJackFast L_SqlJack7 M_SqlMH.
Import ListNotations.
Open Scope string_scope.
Open Scope list_scope.

Notation two := (option R * option R)%type.
Definition fin (a b : option R) : option R := option_map (fun r => 100 * r - 100)%R (vdiv (coalesce0 a) (coalesce0 b)).
Definition same_key (k : skey) (p : skey * two) : bool := if skey_dec (fst p) k then true else false.
Definition per_group (T : list (skey * two)) (k : skey) : option R :=
  fin (ssum (List.map (fun p => fst (snd p)) (filter (same_key k) T))) (ssum (List.map (fun p => snd (snd p)) (filter (same_key k) T))).
Definition groups (T : list (skey * two)) : list (skey * option R) := List.map (fun k => (k, per_group T k)) (nodup skey_dec (List.map fst T)).
Lemma per_group_perm T T' k : Permutation T T' -> per_group T k = per_group T' k.
Proof. intros H. unfold per_group. f_equal; apply ssum_perm, Permutation_map, filter_perm, H. Qed.
Lemma groups_perm T T' : Permutation T T' -> Permutation (groups T) (groups T').
Proof.
  intros H. unfold groups. rewrite (map_ext _ (fun k => (k, per_group T' k))) by (intros k; f_equal; now apply per_group_perm).
  apply Permutation_map. apply NoDup_Permutation; try apply NoDup_nodup. intros k. rewrite !nodup_In. split; apply Permutation_in; [|symmetry]; now apply Permutation_map.
Qed.

(** the terms of the sums: (k_a * n_b) / (n_b + n_a) and (k_b * n_a) / (n_b + n_a) *)
Definition term (p q : two) : two :=
  (vdiv (lift2 Rmult (fst p) (snd q)) (lift2 Rplus (snd q) (snd p)), vdiv (lift2 Rmult (fst q) (snd p)) (lift2 Rplus (snd q) (snd p))).
Definition unf2 (q : num * num) : two := (unf (fst q), unf (snd q)).
Definition enc2 (kv : list string * (num * num)) : skey * two := (List.map Some (fst kv), unf2 (snd kv)).

Lemma firstn_length_app {A} n (l : list A) : (n <= List.length l)%nat -> List.length (firstn n l) = n.
Proof. intros H. rewrite firstn_length. lia. Qed.

Section Join.
  Variables (s cond strata rest base : list string) (incl_base : bool) (vn vd : string) (Raw : list row) (fr : frame2).
  Notation n := (List.length s). Notation nc := (List.length cond). Notation ns := (List.length strata).
  Notation I := ((s ++ cond ++ strata) ++ rest).
  Hypothesis Hnd : NoDup I.
  Hypothesis Hvn : ~ In vn I.
  Hypothesis Hvd : ~ In vd I.
  Hypothesis Hbase : List.length base = nc.
  Hypothesis Hraw : Permutation (list_shown I [vn; vd] Raw) (List.map (fun kv => (List.map Some (fst kv), [fst (snd kv); snd (snd kv)])) fr).
  Hypothesis Hd : NoDup (List.map fst fr).
  Hypothesis Hl : forall k q, In (k, q) fr -> List.length k = List.length I.

  Definition nums2 (r : row) : two := (number (r vn), number (r vd)).
  Definition ob (r : row) : skey * two := (List.map (fun c => label (r c)) I, nums2 r).
  Lemma ob_perm : Permutation (List.map ob Raw) (List.map enc2 fr).
  Proof.
    apply (Permutation_map (fun kl => (fst kl, (unf (nth 0 (snd kl) NaN), unf (nth 1 (snd kl) NaN))))) in Hraw. unfold list_shown in Hraw. rewrite !map_map in Hraw. cbn [fst snd nth List.map] in Hraw.
    etransitivity; [|exact Hraw]. erewrite map_ext; [apply Permutation_refl|]. intros r. unfold ob, nums2. now rewrite !unf_fetch.
  Qed.
  Lemma ob_row r : In r Raw -> exists k q, In (k, q) fr /\ List.map (fun c => label (r c)) I = List.map Some k /\ nums2 r = unf2 q.
  Proof.
    intros H. apply (in_map ob) in H. apply (Permutation_in _ ob_perm) in H. apply in_map_iff in H as [[k q] [E H]]. exists k, q. unfold ob, enc2 in E. cbn [fst snd] in E.
    split; [exact H|]. split; [exact (eq_sym (f_equal fst E))|exact (eq_sym (f_equal snd E))].
  Qed.

  Notation labels l r := (List.map (fun c => label (r c)) l).
  Lemma labels_cond r : labels cond r = scond n nc (labels I r).
  Proof. unfold scond. rewrite <- !app_assoc, !map_app, skipn_app_len by now rewrite map_length. now rewrite firstn_app_len by now rewrite map_length. Qed.
  Lemma labels_us r : labels (s ++ strata ++ rest) r = sdrop n nc (labels I r).
  Proof.
    unfold sdrop. rewrite <- !app_assoc, !map_app, firstn_app_len by now rewrite map_length. f_equal.
    rewrite (app_assoc (labels s r)), skipn_app_len; [reflexivity|]. now rewrite app_length, !map_length.
  Qed.
  Lemma labels_index r : labels (s ++ cond ++ rest) r = sdrop (n + nc) ns (labels I r).
  Proof.
    unfold sdrop. rewrite !map_app. rewrite !app_assoc. rewrite <- (app_assoc _ (labels strata r)). rewrite firstn_app_len by (rewrite app_length, !map_length; reflexivity). f_equal.
    rewrite app_assoc, skipn_app_len; [reflexivity|]. rewrite !app_length, !map_length. reflexivity.
  Qed.

  Notation wb := (isb n nc base).
  Lemma where_eq r : In r Raw -> fold_right (fun p acc => and3 (equals (plain_env r) p) acc) (Some true) (combine cond base) = Some (wb (labels I r)).
  Proof.
    intros Hr. destruct (ob_row r Hr) as (k & q & _ & Ek & _). rewrite Ek, isb_some. apply all_eq_some; [exact Hbase|]. rewrite key_of_plain, labels_cond, Ek. apply scond_some.
  Qed.

  (** The partners of a row. *)
  Definition partners (K : skey) (T : list (skey * two)) : list two :=
    match List.map snd (filter (fun b => wb (fst b) && mk (sdrop n nc K) (sdrop n nc (fst b))) T) with [] => [(None, None)] | l => l end.
  Definition TJ (T : list (skey * two)) : list (skey * two) :=
    flat_map (fun a => if incl_base || negb (wb (fst a)) then List.map (fun q => (sdrop (n + nc) ns (fst a), term (snd a) q)) (partners (fst a) T) else []) T.
  Lemma partners_perm K T T' : Permutation T T' -> Permutation (partners K T) (partners K T').
  Proof.
    intros H. unfold partners. apply (filter_perm (fun b => wb (fst b) && mk (sdrop n nc K) (sdrop n nc (fst b)))), (Permutation_map snd) in H. revert H.
    generalize (List.map snd (filter (fun b => wb (fst b) && mk (sdrop n nc K) (sdrop n nc (fst b))) T)) as a, (List.map snd (filter (fun b => wb (fst b) && mk (sdrop n nc K) (sdrop n nc (fst b))) T')) as b. intros [|a0 a] [|b0 b] H; auto.
    - apply Permutation_nil in H. discriminate.
    - symmetry in H. apply Permutation_nil in H. discriminate.
  Qed.
  Lemma TJ_perm T T' : Permutation T T' -> Permutation (TJ T) (TJ T').
  Proof.
    intros H. unfold TJ. etransitivity; [apply flat_map_perm, H|]. apply flat_map_perm_ext. intros a. destruct (incl_base || _); [|constructor]. now apply Permutation_map, partners_perm.
  Qed.

  Notation us := (add_cols (difference (s ++ cond ++ rest) cond) strata).
  Lemma us_perm : Permutation us (s ++ strata ++ rest).
  Proof.
    assert (Permutation I (cond ++ s ++ strata ++ rest)) as P by (rewrite <- !app_assoc; apply Permutation_app_swap_app).
    assert (NoDup (s ++ cond ++ rest)) as N1.
    { assert (Permutation I (strata ++ s ++ cond ++ rest)) as P' by (rewrite <- !app_assoc; rewrite (Permutation_app_swap_app cond), Permutation_app_swap_app; reflexivity). apply (Permutation_NoDup P') in Hnd. now apply NoDup_tail in Hnd. }
    rewrite difference_split by exact N1. assert (Permutation ((s ++ rest) ++ strata) (s ++ strata ++ rest)) as P2 by (rewrite <- app_assoc; apply Permutation_app_head, Permutation_app_comm).
    rewrite add_cols_app; [exact P2|]. apply (Permutation_NoDup (Permutation_sym P2)). apply (Permutation_NoDup P) in Hnd. now apply NoDup_tail in Hnd.
  Qed.
  Lemma us_cond c : In c us -> ~ In c cond.
  Proof.
    intros H Hc. apply (Permutation_in _ us_perm) in H. assert (Permutation I (cond ++ s ++ strata ++ rest)) as P by (rewrite <- !app_assoc; apply Permutation_app_swap_app).
    apply (Permutation_NoDup P) in Hnd. clear - H Hc Hnd. induction cond as [|y l IH]; [destruct Hc|]. cbn in Hnd. inversion Hnd; subst. destruct Hc as [->|Hc]; auto. apply H2, in_or_app. auto.
  Qed.
  Definition drop_columns (r : row) : row := fun c => if mem c cond then Null else r c.
  Lemma match_drop r1 r2 : match_using us r1 (drop_columns r2) = mk (sdrop n nc (labels I r1)) (sdrop n nc (labels I r2)).
  Proof.
    rewrite <- !labels_us, <- match_using_mk. transitivity (match_using us r1 r2).
    - unfold match_using. assert (forall l, (forall c, In c l -> ~ In c cond) -> forallb (fun c => match label (r1 c), label (drop_columns r2 c) with Some a, Some b => String.eqb a b | _, _ => false end) l = forallb (fun c => match label (r1 c), label (r2 c) with Some a, Some b => String.eqb a b | _, _ => false end) l) as G.
      { induction l as [|c l IH]; intros H; [reflexivity|]. cbn [forallb]. rewrite IH by (intros; apply H; now right). unfold drop_columns. rewrite (proj2 (mem_false c cond)) by (apply H; now left). reflexivity. }
      apply G, us_cond.
    - unfold match_using. pose proof us_perm as P. revert P. generalize us, (s ++ strata ++ rest). intros l l'. induction 1; cbn; try congruence. rewrite !andb_assoc. f_equal. apply andb_comm.
  Qed.

  Definition base_rows : list row := List.map drop_columns (filter (fun r => where_pass (Some (WEq (combine cond base))) (plain_env r)) Raw).
  Definition joined : list (row * row) := filter (fun p => where_pass (if incl_base then None else Some (WNot (combine cond base))) (plain_env (fst p))) (left_join us Raw base_rows).
  Definition obj (p : row * row) : skey * two := (labels (s ++ cond ++ rest) (fst p), term (nums2 (fst p)) (nums2 (snd p))).
  Lemma nums2_drop r : nums2 (drop_columns r) = nums2 r.
  Proof. unfold nums2, drop_columns. rewrite !(proj2 (mem_false _ cond)); [reflexivity| |]; intros H; [apply Hvd|apply Hvn]; apply in_or_app; left; apply in_or_app; right; apply in_or_app; now left. Qed.
  Lemma partner_rows r : List.map nums2 (filter (match_using us r) base_rows) = List.map snd (filter (fun b => wb (fst b) && mk (sdrop n nc (labels I r)) (sdrop n nc (fst b))) (List.map ob Raw)).
  Proof.
    unfold base_rows. rewrite !filter_map_comm, !map_map. cbn [ob fst snd]. rewrite (map_ext _ nums2) by apply nums2_drop. f_equal.
    assert (forall l, (forall r', In r' l -> In r' Raw) -> filter (fun x => match_using us r (drop_columns x)) (filter (fun r' => where_pass (Some (WEq (combine cond base))) (plain_env r')) l) = filter (fun x => wb (labels I x) && mk (sdrop n nc (labels I r)) (sdrop n nc (labels I x))) l) as G; [|now apply G].
    induction l as [|r' l IH]; intros H; [reflexivity|]. cbn [filter]. pose proof (where_eq r' (H r' (or_introl eq_refl))) as E. cbn [where_pass]. cbn [where_pass] in IH. rewrite E.
    destruct (wb (labels I r')); cbn [andb].
    - cbn [filter]. rewrite match_drop. rewrite IH by (intros; apply H; now right). reflexivity.
    - apply IH. intros; apply H; now right.
  Qed.
  Lemma joined_obs : List.map obj joined = TJ (List.map ob Raw).
  Proof.
    unfold joined, left_join. rewrite map_filter_flat. unfold TJ. rewrite flat_map_map. apply flat_map_ext_in. intros r Hr. cbn [ob fst snd].
    set (W := fun p : row * row => where_pass _ _). assert (forall b, W (r, b) = incl_base || negb (wb (labels I r))) as HW.
    { intros b. unfold W. cbn [fst]. destruct incl_base; [reflexivity|]. cbn [where_pass orb]. rewrite (where_eq r Hr). now destruct (wb (labels I r)). }
    set (L := match filter (match_using us r) base_rows with [] => _ | l => _ end).
    assert (forall p, In p L -> W p = incl_base || negb (wb (labels I r))) as HL.
    { intros p Hp. unfold L in Hp. assert (fst p = r) as E. { destruct (filter (match_using us r) base_rows) as [|b0 l]; [destruct Hp as [<-|[]]; reflexivity|]. apply in_map_iff in Hp as (b & <- & _). reflexivity. }
      destruct p as [p1 p2]. cbn in E. subst p1. apply HW. }
    destruct (incl_base || negb _).
    - rewrite filter_all by exact HL. unfold L, partners. rewrite <- partner_rows. destruct (filter (match_using us r) base_rows) as [|b l].
      + cbn [List.map]. unfold obj. cbn [fst snd]. rewrite labels_index. reflexivity.
      + cbn [List.map]. unfold obj at 1. cbn [fst snd]. rewrite labels_index. f_equal. rewrite !map_map. apply map_ext. intros b'. unfold obj. cbn [fst snd]. now rewrite labels_index.
    - now rewrite filter_none by exact HL.
  Qed.

  (** ** pandas *)
  Variable df_base : frame2.
  Hypothesis Hxs : xs n nc base fr = Some df_base.
  Lemma key_len k q : In (k, q) fr -> List.length k = (n + nc + ns + List.length rest)%nat.
  Proof. intros H. rewrite (Hl _ _ H), !app_length. lia. Qed.
  Lemma good_fr : good_index (n + nc) fr.
  Proof. split; [exact Hd|]. intros k q H. rewrite (key_len _ _ H). lia. Qed.
  Lemma partners_lookup k q : In (k, q) fr -> partners (List.map Some k) (List.map enc2 fr) = [unf2 (lookup2 (drop_cond n nc k) df_base)].
  Proof.
    intros Hk. pose proof (key_len _ _ Hk) as Lk. unfold partners. rewrite filter_map_comm, map_map. cbn [enc2 fst snd].
    set (P := fun kv : list string * (num * num) => isb n nc base (List.map Some (fst kv)) && mk (sdrop n nc (List.map Some k)) (sdrop n nc (List.map Some (fst kv)))).
    change (match List.map (fun kv => unf2 (snd kv)) (filter P fr) with [] => [(None, None)] | l => l end = [unf2 (lookup2 (drop_cond n nc k) df_base)]).
    assert (List.length (firstn n k) = n) as L1 by (apply firstn_length_app; lia).
    set (kb := firstn n k ++ base ++ skipn (n + nc) k).
    assert (forall r, In r fr -> (P r = true <-> fst r = kb)) as HP.
    { intros [k' q'] Hr. pose proof (key_len _ _ Hr) as Lk'. unfold P. cbn [fst]. rewrite isb_some, !sdrop_some, mk_some.
      2:{ unfold drop_cond. rewrite !app_length, !firstn_length, !skipn_length. lia. }
      rewrite andb_true_iff, !key_eqb_eq. unfold kb. split.
      - intros [E1 E2]. rewrite (key_split n nc k') by lia. rewrite E1. unfold drop_cond in E2. apply app_len_inj in E2 as [E2 E3]; [now rewrite E2, E3|]. rewrite !firstn_length. lia.
      - intros ->. split; [now apply cond_of_app|]. rewrite drop_cond_app by assumption. reflexivity. }
    destruct (in_dec (list_eq_dec string_dec) kb (List.map fst fr)) as [Hin|Hin].
    - apply in_map_iff in Hin as [[k' q'] [E Hr]]. cbn in E. subst k'. rewrite (filter_unique P fr kb q' Hd Hr HP). cbn [List.map].
      assert (lookup2 (drop_cond n nc k) df_base = q') as ->; [|reflexivity].
      apply lookup2_In; [exact (xs_unique _ _ _ _ _ good_fr Hxs)|]. unfold drop_cond. exact (xs_In _ _ _ _ _ _ _ _ Hxs L1 Hbase Hr).
    - rewrite (filter_none P). 2:{ intros r Hr. destruct (P r) eqn:E; [|reflexivity]. exfalso. apply (HP _ Hr) in E. apply Hin. rewrite <- E. now apply in_map. }
      assert (lookup2 (drop_cond n nc k) df_base = (NaN, NaN)) as ->; [|reflexivity]. apply lookup2_None. unfold drop_cond.
      apply (xs_not_In _ _ _ _ _ _ _ good_fr Hxs L1 Hbase). intros v Hv. apply Hin. apply in_map_iff. eexists. split; [|exact Hv]. reflexivity.
  Qed.

  Definition pterm (k : list string) (q : num * num) : skey * two := (List.map Some (drop_strata n nc ns k), term (unf2 q) (unf2 (lookup2 (drop_cond n nc k) df_base))).
  Lemma joined_perm : Permutation (List.map obj joined) (List.map (fun r => pterm (fst r) (snd r)) (filter (fun r => incl_base || negb (key_eqb (cond_of n nc (fst r)) base)) fr)).
  Proof.
    rewrite joined_obs. etransitivity; [apply TJ_perm, ob_perm|]. unfold TJ. rewrite flat_map_map.
    assert (forall l, (forall r, In r l -> In r fr) ->
      flat_map (fun a => if incl_base || negb (wb (fst (enc2 a))) then List.map (fun q => (sdrop (n + nc) ns (fst (enc2 a)), term (snd (enc2 a)) q)) (partners (fst (enc2 a)) (List.map enc2 fr)) else []) l =
      List.map (fun r => pterm (fst r) (snd r)) (filter (fun r => incl_base || negb (key_eqb (cond_of n nc (fst r)) base)) l)) as G; [|rewrite G by auto; reflexivity].
    induction l as [|[k q] l IH]; intros H; [reflexivity|]. cbn [flat_map filter fst snd enc2]. rewrite isb_some. specialize (IH (fun r Hr => H r (or_intror Hr))).
    destruct (incl_base || _); [|exact IH]. rewrite (partners_lookup k q) by (apply H; now left). cbn [List.map app fst snd]. f_equal; [|exact IH]. unfold pterm. f_equal. unfold drop_strata. rewrite sdrop_some. reflexivity.
  Qed.
End Join.
