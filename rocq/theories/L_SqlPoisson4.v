(** PoissonBootstrap on the table of sums: the rows multiplied by the weights sum the raw rows repeated by them. *)
From Coq Require Import Reals List Bool String Arith ZArith NArith Permutation Lia Lra.
From Verif Require Import M_Num M_Frame L_Frame M_Leaf M_Ops M_Slices L_Slices M_Jackknife L_Jackknife3 M_Bootstrap M_BootSql L_BootSql L_Bootstrap3 M_SqlText M_BootCache M_SqlGlobal M_SqlLeaf S_SqlLeaf L_SqlLeaf L_SqlLeaf2 M_SqlOps S_SqlOps L_SqlOps7 M_SqlJackknife S_SqlJackknife M_SqlJackFast S_SqlJackFast L_SqlSummary L_SqlSummary2 L_SqlLoo1 L_SqlLoo2 L_SqlLoo3 M_SqlBoot S_SqlBoot L_SqlBoot2 L_SqlBoot3 M_SqlBootPre S_SqlBootPre L_SqlBootPre1 L_SqlBootPre2 P_RowOrder M_SqlPoisson S_SqlPoisson L_SqlPoisson1 L_SqlPoisson2 M_SqlPoissonPre.
Import ListNotations.
Open Scope string_scope.
Open Scope list_scope.
Open Scope R_scope.

Lemma times_key by_ w r : srow_key by_ (times w r) = srow_key by_ r. Proof. reflexivity. Qed.
Lemma weigh_in w r x : In x (weigh w r) <-> (0 < w)%nat /\ x = times w r.
Proof. destruct w; cbn; [split; [intros []|intros [H _]; lia]|]. split; [intros [<-|[]]; split; [lia|reflexivity]|intros [_ ->]; now left]. Qed.
Lemma Rsum_repeat x w : Rsum (repeat x w) = INR w * x.
Proof. induction w as [|w IH]; [cbn; lra|]. rewrite S_INR. cbn [repeat Rsum]. rewrite IH. lra. Qed.
Lemma group_weigh by_ K w r : M_SqlLeaf.group by_ K (weigh w r) = if skey_dec (srow_key by_ r) K then weigh w r else [].
Proof. destruct w; cbn [weigh]; [now destruct (skey_dec _ _)|]. unfold M_SqlLeaf.group. cbn [filter]. rewrite times_key. now destruct (skey_dec _ _). Qed.

Section Scaled.
  Variables (parse : string -> cond) (pre : leaf -> list string -> string) (s e : list string) (u : string) (t : stable) (lvs : list (leaf * list string)).
  Notation U := ((s ++ e) ++ [u]). Notation su := (s ++ [u]).
  Hypothesis Hne : t <> [].
  Hypothesis Hlab : forall r c, In r t -> In c U -> slab r c <> None.
  Hypothesis Hkind : forall l fs, In (l, fs) lvs -> sum_or_count_leaf l.
  Hypothesis Hpre : forall l fs l' fs', In (l, fs) lvs -> In (l', fs') lvs -> pre l fs = pre l' fs' -> (l, fs) = (l', fs').
  Hypothesis Hname : forall l fs, In (l, fs) lvs -> weighted (pre l fs) = true.
  Notation D := (preagg parse pre lvs U t).
  Notation val p := (fun g => match snum g p with Some x => x | None => 0 end).
  Variable W : list string -> nat.
  Notation units := (group_keys su (pandas_table t)).
  (** the units repeated by their weights, and the rows of the table of sums multiplied by them *)
  Definition drawn : list (list string) := flat_map (fun c => repeat c (W c)) units.
  Definition weigh_by (T : stable) : stable := flat_map (fun g => match spart su g with Some c => weigh (W c) g | None => [] end) T.

  Lemma spart_srow g c : spart su g = Some c <-> srow_key su g = List.map Some c.
  Proof.
    unfold spart. generalize su. clear. intros l. revert c. induction l as [|x l IH]; intros c; cbn [row_key srow_key List.map].
    - split; [intros E; now injection E as <-|destruct c; [reflexivity|discriminate]].
    - cbn [lab pandas_row]. destruct (slab g x) as [y|] eqn:E; [|split; [destruct (row_key l (pandas_row g)); discriminate|destruct c; discriminate]].
      destruct (row_key l (pandas_row g)) as [k|] eqn:Ek.
      + split; [intros H; injection H as <-; cbn; f_equal; now apply IH|]. destruct c as [|y' c]; [discriminate|]. intros H. injection H as -> H. apply IH in H. injection H as ->. reflexivity.
      + split; [discriminate|]. destruct c as [|y' c]; [discriminate|]. intros H. injection H as -> H. apply IH in H. discriminate.
  Qed.
  Lemma unit_row K : In K units <-> exists r, In r t /\ srow_key su r = List.map Some K.
  Proof. exact (unit_keys_In s u t K). Qed.
  Lemma drawn_in c : In c drawn <-> In c units /\ (0 < W c)%nat.
  Proof.
    unfold drawn. rewrite in_flat_map. split.
    - intros (c' & Hc & Hr). destruct (W c') as [|w] eqn:E; [destruct Hr|]. pose proof (repeat_spec _ _ _ Hr) as <-. split; [exact Hc|lia].
    - intros (Hc & Hw). exists c. split; [exact Hc|]. destruct (W c); [lia|now left].
  Qed.
  Lemma drawn_len : Forall (fun c => List.length c = List.length su) drawn.
  Proof. apply Forall_forall. intros c Hc. apply drawn_in in Hc as [Hc _]. exact (key_len s u t c Hc). Qed.
  Lemma D_unit g : In g D -> exists c, spart su g = Some c /\ In c units /\ (forall x, In x U -> slab g x <> None).
  Proof.
    intros Hg. destruct (D_fine parse pre s e u t lvs Hne) as (_ & _ & F3). destruct (F3 g Hg) as (r & Hr & E). rewrite key_agree in E.
    assert (forall x, In x su -> In x U) as Hin by (intros x Hx; now apply su_U).
    destruct (srow_key_labels su r) as [c Ec]; [intros x Hx; apply Hlab; auto|]. assert (srow_key su g = List.map Some c) as Eg by (rewrite <- Ec; apply key_agree; intros x Hx; apply E; auto).
    exists c. split; [now apply spart_srow|]. split; [apply unit_row; eauto|]. intros x Hx. rewrite (E x Hx). now apply Hlab.
  Qed.
  Lemma weigh_by_in T x : In x (weigh_by T) <-> exists g c, In g T /\ spart su g = Some c /\ (0 < W c)%nat /\ x = times (W c) g.
  Proof.
    unfold weigh_by. rewrite in_flat_map. split.
    - intros (g & Hg & Hx). destruct (spart su g) as [c|] eqn:E; [|destruct Hx]. apply weigh_in in Hx as [Hw ->]. exists g, c. auto.
    - intros (g & c & Hg & E & Hw & ->). exists g. split; [exact Hg|]. rewrite E. apply weigh_in. auto.
  Qed.
  (** the rows of the drawn units, by rows *)
  Lemma rows_of_drawn : Permutation (rows_of s u drawn D) (flat_map (fun g => match spart su g with Some c => repeat g (W c) | None => [] end) D).
  Proof.
    symmetry. assert (forall r, In r D -> exists k, spart su r = Some k /\ In k units) as Hk by (intros r Hr; destruct (D_unit r Hr) as (c & E & Hc & _); eauto).
    rewrite (flat_map_Perm _ _ _ _ (fun r => eq_refl) (partition_by (spart su) units D (group_keys_NoDup _ _) Hk)). unfold rows_of, drawn. rewrite rows_repeat.
    clear - s. induction units as [|k ks IH]; [reflexivity|]. cbn [flat_map]. rewrite flat_map_app. apply Permutation_app; [|exact IH]. rewrite <- flat_map_repeat.
    assert (M_SqlLeaf.group su (List.map Some k) D = filter (in_slice (spart su) k) D) as ->.
    { apply filter_ext. intros r. destruct (in_slice (spart su) k r) eqn:E.
      - apply ins_iff, spart_srow in E. destruct (skey_dec _ _); congruence.
      - destruct (skey_dec _ _) as [E'|]; [|reflexivity]. apply spart_srow, (ins_iff (spart su)) in E'. congruence. }
    rewrite (flat_map_ext_in _ (fun r => repeat r (W k))); [reflexivity|]. intros r Hr. apply filter_In in Hr as [_ Hr]. now rewrite (proj1 (ins_iff (spart su) k r) Hr).
  Qed.
  Lemma scaled_sum by_ K p (T : stable) : weighted p = true ->
    Rsum (List.map (val p) (M_SqlLeaf.group by_ K (weigh_by T))) = Rsum (List.map (val p) (M_SqlLeaf.group by_ K (flat_map (fun g => match spart su g with Some c => repeat g (W c) | None => [] end) T))).
  Proof.
    intros Hp. unfold weigh_by. rewrite !group_flat. induction T as [|g T IH]; [reflexivity|]. cbn [flat_map]. rewrite !map_app, !Rsum_app, IH. f_equal. destruct (spart su g) as [c|]; [|reflexivity].
    rewrite group_weigh. assert (M_SqlLeaf.group by_ K (repeat g (W c)) = if skey_dec (srow_key by_ g) K then repeat g (W c) else []) as ->.
    { unfold M_SqlLeaf.group. destruct (skey_dec (srow_key by_ g) K) as [E|E]; [apply L_OpsA.filter_all|apply L_OpsA.filter_none]; intros x Hx; apply repeat_spec in Hx; subst x; destruct (skey_dec _ _); congruence. }
    destruct (skey_dec _ _); [|reflexivity]. rewrite map_repeat', Rsum_repeat. destruct (W c) as [|w]; [cbn; lra|]. cbn [weigh List.map Rsum]. unfold times. cbn [snum]. rewrite Hp. destruct (snum g p); cbn [option_map]; lra.
  Qed.
  Theorem scaled_summary by_ : (forall x, In x by_ -> In x (s ++ e)) -> summary parse pre by_ lvs (rows_of s u drawn t) (weigh_by D).
  Proof.
    intros Hb. destruct (D_fine parse pre s e u t lvs Hne) as (F1 & F2 & F3).
    assert (forall g r, srow_key U g = srow_key U r -> srow_key su g = srow_key su r /\ srow_key by_ g = srow_key by_ r) as Hco.
    { intros g r E. rewrite key_agree in E. split; apply key_agree; intros c Hc; apply E; [now apply su_U|apply in_or_app; left; now apply Hb]. }
    assert (forall K r, In r (rows_of s u drawn t) -> srow_key by_ r = List.map Some K -> exists g c, In g D /\ srow_key U g = srow_key U r /\ spart su g = Some c /\ (0 < W c)%nat /\ srow_key by_ g = List.map Some K) as Hrow.
    { intros K r Hr E. apply rows_of_in in Hr as (Hr & c & Hc & Ec). apply drawn_in in Hc as [_ Hw]. destruct (F2 r Hr) as (g & Hg & Eg). destruct (Hco _ _ Eg) as [E1 E2]. exists g, c. split; [exact Hg|]. split; [exact Eg|]. split; [apply spart_srow; congruence|]. split; [exact Hw|congruence]. }
    split; [|split].
    - intros g' c Hg Hc. apply weigh_by_in in Hg as (g & k & Hg & _ & _ & ->). destruct (D_unit g Hg) as (_ & _ & _ & H). apply H. apply in_or_app. left. now apply Hb.
    - intros K. split.
      + intros (r & Hr & E). destruct (Hrow K r Hr E) as (g & c & Hg & _ & Es & Hw & Ek). exists (times (W c) g). split; [|exact Ek]. apply weigh_by_in. exists g, c. auto.
      + intros (g' & Hg & E). apply weigh_by_in in Hg as (g & c & Hg & Es & Hw & ->). rewrite times_key in E. destruct (F3 g Hg) as (r & Hr & Eg). destruct (Hco _ _ Eg) as [E1 E2]. apply spart_srow in Es. exists r. split; [|congruence].
        apply rows_of_in. split; [exact Hr|]. exists c. split; [|congruence]. apply drawn_in. split; [|exact Hw]. apply unit_row. exists r. split; [exact Hr|congruence].
    - intros l fs K v Hl (r0 & Hr0 & E0) Hv. pose proof (Hkind l fs Hl) as Hk.
      rewrite (column_some parse l fs _ v Hk Hv), (drawn_total parse pre s e u t lvs Hne Hkind Hpre drawn by_ _ l fs drawn_len Hb Hl).
      rewrite (Rsum_perm _ _ (Permutation_map (val (pre l fs)) (group_perm' by_ (List.map Some K) _ _ rows_of_drawn))), <- (scaled_sum by_ _ (pre l fs) D (Hname l fs Hl)). apply sum_of_some.
      assert (carries parse [] t [] l fs "") as Hca by (intros g []).
      destruct (some_row parse [] t [] l fs "" Hk Hca (M_SqlLeaf.group by_ (List.map Some K) (rows_of s u drawn t))) as (r & Hr & Hc); [now rewrite Hv|intros E; assert (In r0 []) as []; rewrite <- E; now apply group_in|].
      apply group_in in Hr as [Hr E]. destruct (Hrow K r Hr E) as (g & c & Hg & Eg & Es & Hw & Ek). exists (times (W c) g). split.
      + apply group_in. split; [|exact Ek]. apply weigh_by_in. exists g, c. auto.
      + unfold times. cbn [snum]. rewrite (Hname l fs Hl). intros En. destruct (snum g (pre l fs)) eqn:Ev; [discriminate|]. clear En.
        rewrite (D_col parse pre s e u t lvs Hne Hpre g l fs Hg Hl) in Ev. apply (column_none _ _ _ _ Hk) in Ev as [Hs Hn]. apply (Hc Hs). apply Hn. apply group_in. split; [|congruence].
        now apply rows_of_in in Hr as [Hr _].
  Qed.
End Scaled.
