(** Tables of sums: one row per group, the columns are the sums of the group. *)
From Coq Require Import Reals List Bool String Arith ZArith Permutation Sorted Lia Lra.
From Verif Require Import M_Num M_Frame L_Frame M_Leaf M_Ops S_Ops L_OpsA M_SqlGlobal S_SqlGlobal L_SqlGlobal M_SqlLeaf S_SqlLeaf L_SqlLeaf L_SqlLeaf2 M_SqlOps S_SqlOps L_SqlOps L_SqlOps7 M_SqlJackknife S_SqlJackknife L_SqlJack1 L_SqlJack4 L_SqlJack5 M_SqlJackFast L_SqlSummary L_SqlSummary2.
Import ListNotations.
Open Scope string_scope.
Open Scope list_scope.
Open Scope R_scope.

Lemma group_in by_ K T r : In r (M_SqlLeaf.group by_ K T) <-> In r T /\ srow_key by_ r = K.
Proof. unfold M_SqlLeaf.group. rewrite filter_In. destruct (skey_dec _ _); split; intros [H1 H2]; auto; discriminate. Qed.
(** agreement of labels *)
Lemma key_agree by_ (r r' : srow) : srow_key by_ r = srow_key by_ r' <-> forall c, In c by_ -> slab r c = slab r' c.
Proof.
  unfold srow_key. induction by_ as [|c by_ IH]; cbn [List.map]; [split; [intros _ c []|reflexivity]|]. split.
  - intros H. injection H as H1 H2. intros d [<-|Hd]; [exact H1|]. now apply IH.
  - intros H. f_equal; [apply H; now left|]. apply IH. intros d Hd. apply H. now right.
Qed.
Lemma assoc_key by_ (r : srow) c : In c by_ -> assoc c (combine by_ (srow_key by_ r)) = Some (slab r c).
Proof.
  unfold srow_key. induction by_ as [|d by_ IH]; [intros []|]. intros H. cbn [List.map combine assoc]. rewrite String.eqb_sym. destruct (String.eqb_spec c d) as [->|N]; [reflexivity|]. apply IH. destruct H; [congruence|assumption].
Qed.

(** ** Rows of [grouped] *)
Section Grouped.
  Variables (by_ : list string) (aggs : string -> stable -> option R) (T : stable).
  Hypothesis Hne : T <> [].
  Definition grow (k : skey) : srow := SRow (fun c => match assoc c (combine by_ k) with Some l => l | None => None end) (fun c => aggs c (M_SqlLeaf.group by_ k T)).
  Lemma grouped_rows : grouped by_ aggs T = List.map grow (nodup skey_dec (List.map (srow_key by_) T)).
  Proof.
    unfold grouped, grow. destruct by_ as [|c bs]; [|reflexivity]. f_equal.
    assert (forall l : stable, l <> [] -> nodup skey_dec (List.map (srow_key []) l) = [[]]) as H; [|symmetry; now apply H].
    induction l as [|r l IH]; [congruence|]. intros _. cbn [List.map nodup]. destruct (in_dec _ _ _) as [Hi|Hi].
    - apply IH. destruct l; [destruct Hi|discriminate].
    - destruct l as [|r' l]; [reflexivity|]. exfalso. apply Hi. now left.
  Qed.
  Lemma grow_lab r c : In c by_ -> slab (grow (srow_key by_ r)) c = slab r c.
  Proof. intros Hc. cbn. now rewrite assoc_key. Qed.
  Lemma grow_key r : srow_key by_ (grow (srow_key by_ r)) = srow_key by_ r.
  Proof. apply key_agree. intros c Hc. now apply grow_lab. Qed.
  Lemma grouped_in g : In g (grouped by_ aggs T) <-> exists r, In r T /\ g = grow (srow_key by_ r).
  Proof.
    rewrite grouped_rows, in_map_iff. split.
    - intros (k & <- & Hk). apply nodup_In, in_map_iff in Hk as (r & <- & Hr). eauto.
    - intros (r & Hr & ->). exists (srow_key by_ r). split; [reflexivity|]. apply nodup_In. now apply in_map.
  Qed.
  Lemma grouped_keys : List.map (srow_key by_) (grouped by_ aggs T) = nodup skey_dec (List.map (srow_key by_) T).
  Proof.
    rewrite grouped_rows, map_map. rewrite <- (map_id (nodup _ _)) at 2. apply map_ext_in. intros k Hk. apply nodup_In, in_map_iff in Hk as (r & <- & Hr). apply grow_key.
  Qed.
  Lemma grouped_NoDup : NoDup (List.map (srow_key by_) (grouped by_ aggs T)).
  Proof. rewrite grouped_keys. apply NoDup_nodup. Qed.
  Lemma grouped_group r : In r T -> M_SqlLeaf.group by_ (srow_key by_ r) (grouped by_ aggs T) = [grow (srow_key by_ r)].
  Proof.
    intros Hr. unfold M_SqlLeaf.group. pose proof grouped_NoDup as Hn. apply NoDup_map_inv in Hn. apply filter_single; [exact Hn|apply grouped_in; eauto|].
    intros g Hg. apply grouped_in in Hg as (r' & Hr' & ->). rewrite grow_key. destruct (skey_dec _ _) as [->|N]; split; auto; [discriminate|]. intros E. exfalso. apply N. apply (f_equal (srow_key by_)) in E. now rewrite !grow_key in E.
  Qed.
  Lemma grouped_ne : grouped by_ aggs T <> [].
  Proof. rewrite grouped_rows. destruct T as [|r T']; [congruence|]. intros E. apply map_eq_nil in E. assert (In (srow_key by_ r) []) as []. rewrite <- E. apply nodup_In. now left. Qed.
End Grouped.

(** ** Contributions *)
Section Contrib.
  Variable parse : string -> cond.
  Definition contrib (l : leaf) (fs : list string) (r : srow) : option R :=
    match l with
    | Lf (LSum c) => sarg parse (AIf fs c) r
    | Lf (LCount c) => option_map (fun _ => 1) (sarg parse (AIf fs c) r)
    | _ => None
    end.
  Definition amount (l : leaf) (fs : list string) (r : srow) : R := match contrib l fs r with Some x => x | None => 0 end.
  Definition total_of (l : leaf) (fs : list string) (rows : stable) : R := Rsum (List.map (amount l fs) rows).
  Lemma total_nonnull l fs rows : Rsum (nonnull (List.map (contrib l fs) rows)) = total_of l fs rows.
  Proof. unfold total_of, amount. induction rows as [|r rows IH]; [reflexivity|]. cbn [List.map nonnull Rsum]. destruct (contrib l fs r); cbn [Rsum]; rewrite IH; lra. Qed.
  Lemma ones (f : srow -> option R) rows : Rsum (nonnull (List.map (fun r => option_map (fun _ => 1) (f r)) rows)) = INR (List.length (nonnull (List.map f rows))).
  Proof.
    induction rows as [|r rows IH]; [reflexivity|]. cbn [List.map nonnull]. destruct (f r); cbn [option_map]; [|exact IH]. cbn [Rsum]. rewrite IH. change (INR (List.length (r0 :: nonnull (List.map f rows)))) with (INR (S (List.length (nonnull (List.map f rows))))). rewrite S_INR. lra.
  Qed.
  Lemma column_some l fs rows v : sum_or_count_leaf l -> leaf_column parse l fs rows = Some v -> v = total_of l fs rows.
  Proof.
    intros (c & [-> | ->]); rewrite <- total_nonnull; cbn [leaf_column sagg_value contrib]; unfold inputs.
    - unfold unless_fewer. destruct (Nat.ltb _ _); [discriminate|]. intros H. now injection H as <-.
    - intros H. injection H as <-. symmetry. apply (ones (sarg parse (AIf fs c))).
  Qed.
  Lemma column_none l fs rows : sum_or_count_leaf l -> leaf_column parse l fs rows = None <-> (exists c, l = Lf (LSum c)) /\ forall r, In r rows -> contrib l fs r = None.
  Proof.
    intros (c & [-> | ->]); cbn [leaf_column sagg_value contrib]; unfold inputs.
    - assert (nonnull (List.map (sarg parse (AIf fs c)) rows) = [] <-> forall r, In r rows -> sarg parse (AIf fs c) r = None) as <-.
      { induction rows as [|r rows IH]; [split; [intros _ r []|reflexivity]|]. cbn [List.map nonnull]. destruct (sarg parse (AIf fs c) r) eqn:E; [split; [discriminate|]|rewrite IH; split; intros H].
        - intros H. rewrite (H r (or_introl eq_refl)) in E. discriminate.
        - intros z [<-|Hz]; auto.
        - intros z Hz. apply H. now right. }
      unfold unless_fewer. destruct (nonnull _); cbn; split; try discriminate; eauto. intros [_ H]. discriminate.
    - split; [discriminate|]. intros [(c' & H) _]. discriminate.
  Qed.
  Lemma none_total l fs rows : sum_or_count_leaf l -> leaf_column parse l fs rows = None -> total_of l fs rows = 0.
  Proof.
    intros Hk H. apply (column_none l fs rows Hk) in H as [_ H]. unfold total_of, amount. induction rows as [|r rows IH]; [reflexivity|]. cbn [List.map Rsum]. rewrite (H r (or_introl eq_refl)), IH; [lra|]. intros z Hz. apply H. now right.
  Qed.
  Lemma total_split l fs (p : srow -> bool) rows : total_of l fs rows = total_of l fs (filter p rows) + total_of l fs (filter (fun r => negb (p r)) rows).
  Proof. unfold total_of. induction rows as [|r rows IH]; cbn [List.map Rsum filter]; [lra|]. rewrite IH. destruct (p r); cbn [negb List.map Rsum]; lra. Qed.
  Lemma total_ext l fs (p q : srow -> bool) rows : (forall r, In r rows -> p r = q r) -> total_of l fs (filter p rows) = total_of l fs (filter q rows).
  Proof. intros H. f_equal. now apply filter_ext_in. Qed.
  (** one total per key, over distinct keys *)
  Definition key_in (by_ : list string) (ks : list skey) (r : srow) : bool := if in_dec skey_dec (srow_key by_ r) ks then true else false.
  Lemma total_keys l fs by_ T ks : NoDup ks -> Rsum (List.map (fun k => total_of l fs (M_SqlLeaf.group by_ k T)) ks) = total_of l fs (filter (key_in by_ ks) T).
  Proof.
    induction ks as [|k ks IH]; intros Hn.
    - cbn [List.map Rsum]. rewrite (filter_none (key_in by_ [])) by reflexivity. reflexivity.
    - inversion Hn as [|? ? Hk Hn']; subst. cbn [List.map Rsum]. rewrite (IH Hn'). symmetry. rewrite (total_split l fs (fun r => if skey_dec (srow_key by_ r) k then true else false) (filter (key_in by_ (k :: ks)) T)).
      rewrite !L_SqlLeaf2.filter_filter. f_equal; apply total_ext; intros r _; unfold key_in; destruct (skey_dec (srow_key by_ r) k) as [E|E], (in_dec skey_dec (srow_key by_ r) (k :: ks)) as [H1|H1], (in_dec skey_dec (srow_key by_ r) ks) as [H2|H2]; cbn; try reflexivity; exfalso; cbn [In] in H1; intuition congruence.
  Qed.

  Lemma sum_of_nonnull p (rows : stable) : sum_of parse p rows = unless_fewer 1 (nonnull (List.map (fun r => snum r p) rows)) (Rsum (nonnull (List.map (fun r => snum r p) rows))).
  Proof. reflexivity. Qed.
  Lemma sum_of_one p g : sum_of parse p [g] = snum g p.
  Proof. rewrite sum_of_nonnull. cbn [List.map nonnull]. destruct (snum g p); cbn; [f_equal; lra|reflexivity]. Qed.
  Lemma sum_of_some p (rows : stable) : (exists r, In r rows /\ snum r p <> None) -> sum_of parse p rows = Some (Rsum (List.map (fun r => match snum r p with Some x => x | None => 0 end) rows)).
  Proof.
    intros H. rewrite sum_of_nonnull. assert (nonnull (List.map (fun r => snum r p) rows) <> []) as Hn.
    { destruct H as (r & Hr & H). induction rows as [|z rows IH]; [destruct Hr|]. cbn [List.map nonnull]. destruct (snum z p) eqn:E; [discriminate|]. destruct Hr as [->|Hr]; [congruence|auto]. }
    unfold unless_fewer. destruct (nonnull _) as [|a l] eqn:E; [congruence|]. cbn [List.length Nat.ltb Nat.leb]. f_equal. rewrite <- E. clear. induction rows as [|z rows IH]; [reflexivity|]. cbn [List.map nonnull Rsum]. destruct (snum z p); cbn [Rsum]; rewrite IH; lra.
  Qed.
  Lemma sum_of_none p (rows : stable) : (forall r, In r rows -> snum r p = None) -> sum_of parse p rows = None.
  Proof. intros H. rewrite sum_of_nonnull. assert (nonnull (List.map (fun r => snum r p) rows) = []) as ->; [|reflexivity]. induction rows as [|z rows IH]; [reflexivity|]. cbn [List.map nonnull]. rewrite (H z (or_introl eq_refl)). apply IH. intros r Hr. apply H. now right. Qed.

  (** ** Fine tables *)
  (** [T'] has one row for every group of [T]. *)
  Definition fine (W : list string) (T T' : stable) : Prop :=
    NoDup (List.map (srow_key W) T') /\ (forall r, In r T -> exists g, In g T' /\ srow_key W g = srow_key W r) /\ (forall g, In g T' -> exists r, In r T /\ srow_key W g = srow_key W r).
  (** the column of [T'] is the sum in the group; if there is nothing to sum it may be 0. *)
  Definition carries (W : list string) (T T' : stable) (l : leaf) (fs : list string) (p : string) : Prop :=
    forall g, In g T' -> match leaf_column parse l fs (M_SqlLeaf.group W (srow_key W g) T) with Some v => snum g p = Some v | None => snum g p = None \/ snum g p = Some 0 end.

  Section Coarser.
    Variables (W by_ : list string) (T T' : stable) (l : leaf) (fs : list string) (p : string).
    Hypothesis Hsub : forall c, In c by_ -> In c W.
    Hypothesis Hfine : fine W T T'.
    Hypothesis Hkind : sum_or_count_leaf l.
    Hypothesis Hcar : carries W T T' l fs p.
    Lemma coarser g r : srow_key W g = srow_key W r -> srow_key by_ g = srow_key by_ r.
    Proof. rewrite !key_agree. intros H c Hc. apply H. now apply Hsub. Qed.
    Lemma fine_group K : total_of l fs (M_SqlLeaf.group by_ K T) = Rsum (List.map (fun g => match snum g p with Some x => x | None => 0 end) (M_SqlLeaf.group by_ K T')).
    Proof.
      destruct Hfine as (F1 & F2 & F3). transitivity (Rsum (List.map (fun k => total_of l fs (M_SqlLeaf.group W k T)) (List.map (srow_key W) (M_SqlLeaf.group by_ K T')))).
      - rewrite total_keys.
        2:{ unfold M_SqlLeaf.group. clear - F1. induction T' as [|g T0 IH]; [constructor|]. cbn [List.map] in F1. inversion F1 as [|? ? H1 H2]; subst. cbn [filter]. destruct (skey_dec _ _); [|auto]. cbn [List.map]. constructor; [|auto].
            intros H. apply H1. apply in_map_iff in H as (z & <- & Hz). apply filter_In in Hz as [Hz _]. now apply in_map. }
        unfold M_SqlLeaf.group at 1. apply total_ext. intros r Hr. unfold key_in. destruct (skey_dec _ _) as [E|E], (in_dec _ _ _) as [Hi|Hi]; try reflexivity; exfalso.
        + apply Hi. destruct (F2 r Hr) as (g & Hg & Eg). rewrite <- Eg. apply in_map. apply group_in. split; [exact Hg|]. rewrite <- E. now apply coarser.
        + apply in_map_iff in Hi as (g & Eg & Hg). apply group_in in Hg as [_ Eg']. apply E. rewrite <- Eg'. symmetry. now apply coarser.
      - rewrite map_map. f_equal. apply map_ext_in. intros g Hg. apply group_in in Hg as [Hg _]. specialize (Hcar g Hg). destruct (leaf_column parse l fs (M_SqlLeaf.group W (srow_key W g) T)) as [v|] eqn:E.
        + rewrite Hcar. symmetry. now apply column_some.
        + rewrite (none_total _ _ _ Hkind E). now destruct Hcar as [-> | ->].
    Qed.
    Lemma some_row (rows : stable) : leaf_column parse l fs rows <> None -> rows <> [] -> exists r, In r rows /\ ((exists c, l = Lf (LSum c)) -> contrib l fs r <> None).
    Proof.
      intros H Hn. destruct Hkind as (c & [-> | ->]).
      - cbn [contrib]. cbn [leaf_column sagg_value] in H. unfold inputs in H. clear Hn. induction rows as [|r rows IH]; [now cbn in H|]. cbn [List.map nonnull] in H. destruct (sarg parse (AIf fs c) r) as [y|] eqn:E; [exists r; split; [now left|]; intros _; now rewrite E|].
        destruct (IH H) as (z & Hz & H'). exists z. split; [now right|exact H'].
      - destruct rows as [|r rows]; [congruence|]. exists r. split; [now left|]. intros (c' & E). discriminate.
    Qed.
    Lemma fine_sum K v : (exists r, In r T /\ srow_key by_ r = K) -> leaf_column parse l fs (M_SqlLeaf.group by_ K T) = Some v -> sum_of parse p (M_SqlLeaf.group by_ K T') = Some v.
    Proof.
      intros (r0 & Hr0 & E0) Hv. rewrite (column_some l fs _ v Hkind Hv), fine_group. apply sum_of_some. destruct Hfine as (F1 & F2 & F3).
      destruct (some_row (M_SqlLeaf.group by_ K T)) as (r & Hr & Hc); [now rewrite Hv|intros E; assert (In r0 []) as []; rewrite <- E; now apply group_in|].
      apply group_in in Hr as [Hr E]. destruct (F2 r Hr) as (g & Hg & Eg). exists g. split; [apply group_in; split; [exact Hg|]; rewrite <- E; now apply coarser|].
      specialize (Hcar g Hg). destruct (leaf_column parse l fs (M_SqlLeaf.group W (srow_key W g) T)) as [w|] eqn:Ew; [now rewrite Hcar|]. exfalso. apply (column_none _ _ _ Hkind) in Ew as [Hk Hn].
      apply (Hc Hk). apply Hn. apply group_in. auto.
    Qed.
    (** if no 0 stands for nothing *)
    Lemma fine_none K : (forall g, In g T' -> snum g p = leaf_column parse l fs (M_SqlLeaf.group W (srow_key W g) T)) -> leaf_column parse l fs (M_SqlLeaf.group by_ K T) = None -> sum_of parse p (M_SqlLeaf.group by_ K T') = None.
    Proof.
      intros Hex Hn. apply sum_of_none. intros g Hg. apply group_in in Hg as [Hg Eg]. rewrite (Hex g Hg). apply (column_none _ _ _ Hkind) in Hn as [Hk Hn]. apply (column_none _ _ _ Hkind). split; [exact Hk|].
      intros r Hr. apply group_in in Hr as [Hr Er]. apply Hn. apply group_in. split; [exact Hr|]. rewrite <- Eg. symmetry. apply coarser. congruence.
    Qed.
  End Coarser.
  Theorem fine_summary (name : leaf -> list string -> string) W by_ lvs T T' :
    (forall c, In c by_ -> In c W) -> fine W T T' -> (forall r c, In r T -> In c by_ -> slab r c <> None) ->
    (forall l fs, In (l, fs) lvs -> sum_or_count_leaf l /\ carries W T T' l fs (name l fs)) -> summary parse name by_ lvs T T'.
  Proof.
    intros Hsub Hfine Hlab Hc. pose proof Hfine as (F1 & F2 & F3). split; [|split].
    - intros g c Hg Hi. destruct (F3 g Hg) as (r & Hr & E). apply (proj1 (key_agree W g r)) with (c := c) in E; [|now apply Hsub]. rewrite E. now apply Hlab.
    - intros K. split; intros (r & Hr & E).
      + destruct (F2 r Hr) as (g & Hg & Eg). exists g. split; [exact Hg|]. rewrite <- E. now apply (coarser W by_ Hsub).
      + destruct (F3 r Hr) as (g & Hg & Eg). exists g. split; [exact Hg|]. rewrite <- E. symmetry. now apply (coarser W by_ Hsub).
    - intros l fs K v Hl (r & Hr & E). destruct (Hc l fs Hl) as [Hk Hcar]. apply (fine_sum W by_ T T' l fs (name l fs) Hsub Hfine Hk Hcar). eauto.
  Qed.
End Contrib.
