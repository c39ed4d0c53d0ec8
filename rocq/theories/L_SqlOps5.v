(** Diversity metrics in SQL. *)
From Coq Require Import Reals List Bool String Arith Permutation Sorted Lia Lra.
From Verif Require Import M_Num M_Frame L_Frame M_Ops S_Ops L_OpsA L_OpsB L_OpsC M_SqlGlobal L_SqlGlobal M_SqlLeaf S_SqlLeaf L_SqlLeaf L_SqlLeaf2 M_SqlOps S_SqlOps L_SqlOps L_SqlOps2 L_SqlOps3 L_SqlOps4.
Import ListNotations.
Open Scope string_scope.
Open Scope list_scope.

Lemma map_assoc_combine (by_ : list string) : forall k : skey, NoDup by_ -> List.length k = List.length by_ ->
  List.map (fun c => match assoc c (combine by_ k) with Some l => l | None => None end) by_ = k.
Proof.
  induction by_ as [|b by_ IH]; intros [|x k] Hd Hl; try discriminate; [reflexivity|]. inversion Hd; subst. cbn [combine List.map].
  rewrite assoc_here. f_equal. etransitivity; [|apply (IH k); auto]. apply map_ext_in. intros c Hc. cbn [assoc].
  destruct (String.eqb b c) eqn:E; [|reflexivity]. apply String.eqb_eq in E. subst. contradiction.
Qed.
Lemma label_of_label x : label (of_label x) = x. Proof. now destruct x. Qed.
Lemma number_of_number x : number (of_number x) = x. Proof. now destruct x. Qed.

Section Groups.
  Variables (parse : string -> cond) (srt : list okey -> list env -> list env) (t : stable).

  Definition cells (idx : list string) (v : string) (rows : list row) : list (skey * cell) :=
    List.map (fun r => (List.map (fun c => label (r c)) idx, r v)) rows.
  Lemma obs_cells idx v rows : obs idx v rows = List.map (fun p => (fst p, number (snd p))) (cells idx v rows).
  Proof. unfold obs, cells. now rewrite map_map. Qed.
  Definition trunc (n : nat) (d : list string * num) : skey * option R := (List.map Some (firstn n (fst d)), unf (snd d)).

  (** the rows of a group *)
  Lemma group_of by_ v rows (D : rframe) g :
    Permutation (obs by_ v rows) (List.map (trunc (List.length by_)) D) ->
    Permutation (List.map (fun e => num_at e v) (filter (fun e => if skey_dec (key_of by_ e) (List.map Some g) then true else false) (List.map plain_env rows)))
                (List.map unf (vals (List.length by_) g D)).
  Proof.
    intros H. set (n := List.length by_) in *. set (p := fun kv : skey * option R => if skey_dec (fst kv) (List.map Some g) then true else false).
    apply (filter_perm p) in H. apply (Permutation_map snd) in H.
    etransitivity; [|etransitivity; [exact H|]].
    - rewrite filter_map_comm, map_map. unfold obs. rewrite filter_map_comm, map_map. apply Permutation_refl.
    - rewrite filter_map_comm, map_map. unfold vals, S_Ops.group. rewrite map_map.
      erewrite (filter_ext (fun x => p (trunc n x))); [apply Permutation_refl|]. intros [k x]. unfold p, trunc. cbn [fst].
      destruct (skey_dec _ _) as [E|E], (list_eq_dec _ _ _) as [E'|E']; auto; exfalso.
      + apply some_inj in E. congruence.
      + apply E. now f_equal.
  Qed.
  Lemma group_rows by_ name x dist v (D : rframe) ks (C : list string -> cell) :
    NoDup by_ -> ~ In name by_ -> aggregate_col x = true ->
    Permutation (obs by_ v (run_sql parse srt dist t)) (List.map (trunc (List.length by_)) D) ->
    NoDup ks -> (forall g, In g ks <-> exists d, In d D /\ firstn (List.length by_) (fst d) = g) -> D <> [] ->
    Forall (fun d => List.length by_ <= List.length (fst d))%nat D ->
    (forall g grp e, In g ks -> Permutation (List.map (fun e => num_at e v) grp) (List.map unf (vals (List.length by_) g D)) -> column_cell grp grp e x = C g) ->
    Permutation (cells by_ name (run_sql parse srt (SqlSel [(name, x)] (From dist) None by_) t)) (List.map (fun g => (List.map Some g, C g)) ks).
  Proof.
    intros Hd Hname Hagg Hp Hks Hmem HD Hlen HC. rewrite run_sql_sel. cbn zeta. rewrite where_none, run_src_from.
    set (envs := List.map plain_env (run_sql parse srt dist t)).
    set (K := match by_ with [] => [[]] | _ => nodup skey_dec (List.map (key_of by_) envs) end).
    set (grp := fun k : skey => filter (fun e => if skey_dec (key_of by_ e) k then true else false) envs).
    set (en := fun (k : skey) (c : cref) => match c with Plain c => of_label (match assoc c (combine by_ k) with Some l => l | None => None end) | Of _ _ => Null end).
    transitivity (cells by_ name (List.map (fun k => fun c => if mem c by_ then en k (Plain c) else match assoc c [(name, x)] with Some x => column_cell (grp k) (grp k) (en k) x | None => Null end) K)).
    { destruct by_ as [|b by_]; [|apply Permutation_refl]. cbn [existsb snd]. rewrite Hagg. apply Permutation_refl. }
    assert (forall e, In e envs -> exists d, In d D /\ key_of by_ e = List.map Some (firstn (List.length by_) (fst d))) as Henv.
    { intros e He. unfold envs in He. apply in_map_iff in He as [r [<- Hr]]. apply (in_map (fun r => (List.map (fun c => label (r c)) by_, number (r v)))) in Hr.
      apply (Permutation_in _ Hp) in Hr. apply in_map_iff in Hr as [d [Ed Hd']]. exists d. split; [exact Hd'|]. unfold trunc in Ed. rewrite key_of_plain. congruence. }
    assert (forall d, In d D -> exists e, In e envs /\ key_of by_ e = List.map Some (firstn (List.length by_) (fst d))) as Henv'.
    { intros d Hd'. apply (in_map (trunc (List.length by_))) in Hd'. apply (Permutation_in _ (Permutation_sym Hp)) in Hd'.
      apply in_map_iff in Hd' as [r [Er Hr]]. exists (plain_env r). split; [now apply in_map|]. unfold trunc in Er. rewrite key_of_plain. congruence. }
    assert (Permutation K (List.map (List.map Some) ks)) as HK.
    { apply NoDup_Permutation.
      - unfold K. destruct by_; [repeat constructor; intros []|apply NoDup_nodup].
      - clear - Hks. induction Hks as [|g ks Hg Hks IH]; [constructor|]. cbn. constructor; [|exact IH].
        intros Hi. apply in_map_iff in Hi as [g' [E Hi]]. apply some_inj in E. congruence.
      - intros k. rewrite in_map_iff. unfold K. split.
        + intros Hk. assert (exists d, In d D /\ k = List.map Some (firstn (List.length by_) (fst d))) as (d & Hd' & ->).
          { destruct by_ as [|b by_].
            - destruct Hk as [<-|[]]. destruct D as [|d D]; [congruence|]. exists d. split; [now left|reflexivity].
            - apply nodup_In, in_map_iff in Hk as [e [<- He]]. destruct (Henv e He) as (d & Hd' & E). eauto. }
          eexists. split; [reflexivity|]. apply Hmem. eauto.
        + intros (g & <- & Hg). apply Hmem in Hg as (d & Hd' & <-). destruct by_ as [|b by_]; [now left|].
          apply nodup_In, in_map_iff. destruct (Henv' d Hd') as (e & He & E). exists e. auto. }
    assert (forall k, In k K -> List.length k = List.length by_) as HKl.
    { intros k Hk. apply (Permutation_in _ HK) in Hk. apply in_map_iff in Hk as [g [<- Hg]]. rewrite map_length. apply Hmem in Hg as (d & Hd' & <-).
      rewrite firstn_length. rewrite Forall_forall in Hlen. specialize (Hlen d Hd'). lia. }
    unfold cells. rewrite map_map.
    transitivity (List.map (fun k : skey => (k, column_cell (grp k) (grp k) (en k) x)) K).
    { erewrite map_ext_in; [apply Permutation_refl|]. intros k Hk. cbn beta. f_equal.
      - etransitivity; [|apply (map_assoc_combine by_ k Hd), HKl, Hk]. apply map_ext_in. intros c Hc.
        apply mem_in in Hc. rewrite Hc. unfold en. apply label_of_label.
      - apply mem_false in Hname. rewrite Hname. rewrite assoc_here. reflexivity. }
    etransitivity; [apply Permutation_map, HK|]. rewrite map_map. erewrite map_ext_in; [apply Permutation_refl|]. intros g Hg. cbn beta. f_equal.
    apply HC; [exact Hg|]. unfold grp, envs. apply group_of, Hp.
  Qed.
End Groups.

(** ** Slices of numbers *)
Lemma all_fin (l : list num) : (forall x, In x l -> exists r, x = Fin r) -> exists rs, l = List.map Fin rs.
Proof.
  induction l as [|x l IH]; intros H; [now exists []|]. destruct (H x (or_introl eq_refl)) as [r ->]. destruct IH as [rs ->]; [intros y Hy; apply H; now right|].
  now exists (r :: rs).
Qed.
Lemma finite_values_Fin l : finite_values (List.map Fin l) = l.
Proof. induction l; cbn; congruence. Qed.
Lemma unf_Fin l : List.map unf (List.map Fin l) = List.map Some l.
Proof. rewrite map_map. reflexivity. Qed.
Lemma nonnull_Some (l : list R) : nonnull (List.map Some l) = l.
Proof. induction l; cbn; congruence. Qed.
Lemma ssum_Some l : l <> [] -> ssum (List.map Some l) = Some (Rsum l).
Proof. intros H. unfold ssum. rewrite nonnull_Some. destruct l; [congruence|reflexivity]. Qed.
Lemma no_inf_Fin l : Forall no_inf (List.map Fin l).
Proof. apply Forall_map, Forall_forall. intros. split; discriminate. Qed.
(** descending lists *)
Lemma insert_descR_perm x l : Permutation (insert_descR x l) (x :: l).
Proof. induction l as [|y l IH]; cbn; auto. destruct (Rltb y x); auto. rewrite IH. constructor. Qed.
Lemma sort_descR_perm l : Permutation (sort_descR l) l.
Proof. induction l; cbn; auto. rewrite insert_descR_perm. now constructor. Qed.
Lemma insert_descR_sorted x l : StronglySorted Rge l -> StronglySorted Rge (insert_descR x l).
Proof.
  induction 1 as [|y l Hs IH Hf]; cbn; [repeat constructor|]. unfold Rltb. destruct (Rlt_dec y x) as [H|H].
  - constructor; [now constructor|]. constructor; [lra|]. eapply Forall_impl; [|exact Hf]. intros z Hz. cbn in Hz. lra.
  - constructor; [exact IH|]. apply (Permutation_Forall (Permutation_sym (insert_descR_perm x l))). constructor; [lra|exact Hf].
Qed.
Lemma sort_descR_sorted l : StronglySorted Rge (sort_descR l).
Proof. induction l; cbn; [constructor|]. now apply insert_descR_sorted. Qed.
Lemma desc_unique (l l' : list R) : Permutation l l' -> StronglySorted Rge l -> StronglySorted Rge l' -> l = l'.
Proof. intros. apply (ssorted_unique Rge); auto. intros x y _ _ H2 H3. lra. Qed.
Lemma Rdesc_unique rs l : Permutation l rs -> StronglySorted Rge l -> Rdesc (List.map Fin rs) = l.
Proof.
  intros Hp Hs. destruct (Rdesc_spec _ (no_inf_Fin rs)) as (Hp' & Hs' & _). rewrite finite_values_Fin in Hp'.
  apply desc_unique; auto. etransitivity; [exact Hp'|now symmetry].
Qed.
Lemma nlargest_Fin k rs : nlargest k (List.map Fin rs) = List.map Fin (firstn k (sort_descR rs)).
Proof.
  unfold nlargest. destruct (Rdesc_spec _ (no_inf_Fin rs)) as (_ & _ & E). rewrite E, firstn_map. do 2 f_equal.
  apply Rdesc_unique; [apply sort_descR_perm|apply sort_descR_sorted].
Qed.
Lemma map_some_perm {A} (l : list (option A)) (m : list A) : Permutation l (List.map Some m) -> exists m', l = List.map Some m' /\ Permutation m' m.
Proof. intros H. apply Permutation_map_inv in H as (m' & E & Hp). exists m'. split; [exact E|now symmetry]. Qed.

(** ** Values of the four metrics on a group of numbers *)
Section Values.
  Variables (v : string) (grp : list env) (e : env) (rs : list R).
  Hypothesis Hg : Permutation (List.map (fun e => num_at e v) grp) (List.map Some rs).
  Hypothesis Hne : rs <> [].

  Lemma hhi_cell : column_cell grp grp e (Expr (VSum (VPow2 (VRef (Plain v))))) = of_number (unf (xsum (List.map (fun x => xmul x x) (List.map Fin rs)))).
  Proof.
    cbn [column_cell value]. f_equal. rewrite squares_finite by apply no_inf_Fin. rewrite finite_values_Fin. cbn [unf].
    rewrite <- (map_map (fun r => num_at r v) (option_map (fun x => x * x)%R)). rewrite (ssum_perm _ _ (Permutation_map _ Hg)).
    rewrite map_map. cbn [option_map]. rewrite <- (map_map (fun x => x * x)%R Some). apply ssum_Some. destruct rs; [congruence|discriminate].
  Qed.
  Lemma entropy_cell : Forall (fun x => 0 < x)%R rs ->
    column_cell grp grp e (Expr (VNeg (VSum (VMul (VRef (Plain v)) (VLog (VRef (Plain v))))))) =
    of_number (unf (xsum (List.map (fun x => xmul (xopp x) (xlog x)) (List.map Fin rs)))).
  Proof.
    intros Hpos. cbn [column_cell value]. f_equal. rewrite entropy_finite by (first [apply no_inf_Fin|rewrite finite_values_Fin; apply Forall_forall; intros x Hx; rewrite Forall_forall in Hpos; specialize (Hpos x Hx); lra]).
    rewrite finite_values_Fin. cbn [unf].
    rewrite <- (map_map (fun r => num_at r v) (fun o => lift2 Rmult o (vlog o))). rewrite (ssum_perm _ _ (Permutation_map _ Hg)).
    rewrite map_map. rewrite (map_ext_in _ (fun x => Some (x * ln x)%R)).
    2:{ intros x Hx. rewrite Forall_forall in Hpos. cbn [vlog lift2]. unfold Rltb. destruct (Rlt_dec 0 x) as [|H]; [reflexivity|]. destruct H. auto. }
    rewrite <- (map_map (fun x => x * ln x)%R Some). rewrite ssum_Some by (destruct rs; [congruence|discriminate]). cbn [option_map]. f_equal.
    clear - Hpos. induction Hpos as [|x l Hx Hpos IH]; [cbn; lra|]. cbn [List.map Rsum filter]. replace (L_OpsC.positive x) with true by (unfold L_OpsC.positive; destruct (Rlt_dec 0 x); [reflexivity|lra]). destruct (Rlt_dec 0 x); [|lra].
    cbn [List.map Rsum]. rewrite <- IH. unfold plogp. lra.
  Qed.
  Lemma topk_cell k : k <> 0%nat ->
    exists l, column_cell grp grp e (TopArray v k) = Arr l /\ l <> [] /\ xsum (nlargest k (List.map Fin rs)) = Fin (Rsum l) /\ nlargest k (List.map Fin rs) <> [].
  Proof.
    intros Hk. destruct (map_some_perm _ _ Hg) as (m & E & Hp). cbn [column_cell]. rewrite E, nonnull_Some. eexists. split; [reflexivity|].
    rewrite nlargest_Fin.
    assert (sort_descR m = sort_descR rs) as ->.
    { apply desc_unique; try apply sort_descR_sorted. rewrite sort_descR_perm, sort_descR_perm. exact Hp. }
    assert (firstn k (sort_descR rs) <> []) as Hf.
    { pose proof (Permutation_length (sort_descR_perm rs)) as HL. destruct (sort_descR rs); [destruct rs; [congruence|discriminate]|]. destruct k; [congruence|discriminate]. }
    split; [exact Hf|]. split; [apply xsum_Fin|]. destruct (firstn k (sort_descR rs)); [congruence|discriminate].
  Qed.
  Lemma count_cell share : column_cell grp grp e (Expr (VAdd (VCountIfLess v share) (VNum 1))) =
    Num (INR (List.length (filter (fun c => if Rlt_dec c share then true else false) rs) + 1)).
  Proof.
    cbn [column_cell value lift2 of_number]. f_equal. rewrite plus_INR. cbn [INR]. f_equal. f_equal.
    destruct (map_some_perm _ _ Hg) as (m & E & Hp).
    rewrite <- (Permutation_length (filter_perm (fun c => if Rlt_dec c share then true else false) _ _ Hp)).
    assert (filter (fun c => if Rlt_dec c share then true else false) m = nonnull (filter (fun o => match o with Some a => Rltb a share | None => false end) (List.map Some m))) as ->.
    { clear. induction m as [|a m IH]; [reflexivity|]. cbn [List.map filter]. unfold Rltb at 1. destruct (Rlt_dec a share); cbn [nonnull]; [rewrite IH; reflexivity|exact IH]. }
    rewrite <- E. clear. induction grp as [|a l IH]; [reflexivity|]. cbn [List.map filter].
    destruct (num_at a v) as [x|]; [|exact IH]. destruct (Rltb x share); cbn [nonnull List.length]; [rewrite IH; reflexivity|exact IH].
  Qed.
End Values.
