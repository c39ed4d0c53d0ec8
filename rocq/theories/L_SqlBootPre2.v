(** What is drawn from the sums per unit is what is drawn from the units of the table. *)
From Coq Require Import Reals List Bool String Arith ZArith Permutation Sorted Lia Lra.
From Verif Require Import M_Num M_Frame L_Frame M_Leaf M_Ops S_Ops L_OpsA M_Slices L_Slices M_Bootstrap M_BootSql L_BootSql M_SqlGlobal S_SqlGlobal L_SqlGlobal M_SqlLeaf S_SqlLeaf L_SqlLeaf L_SqlLeaf2 M_SqlOps S_SqlOps L_SqlOps L_SqlOps7 M_SqlJackknife S_SqlJackknife L_SqlJack1 L_SqlJack4 L_SqlJack5 M_SqlJackFast L_SqlSummary L_SqlSummary2 L_SqlLoo1 L_SqlLoo2 M_SqlBoot S_SqlBoot L_SqlBoot2 L_SqlBoot3 S_SqlBootPre M_SqlBootPre L_SqlBootPre1.
Import ListNotations.
Open Scope string_scope.
Open Scope list_scope.

Section Draw.
  Variables (s e : list string) (u : string) (t D : stable).
  Notation U := ((s ++ e) ++ [u]). Notation su := (s ++ [u]). Notation n := (List.length s).
  Hypothesis Hlab : forall r c, In r t -> In c su -> slab r c <> None.
  Hypothesis HlabD : forall r c, In r D -> In c su -> slab r c <> None.
  Hypothesis Hnd : NoDup (List.map (srow_key U) D).
  Hypothesis H1 : forall r, In r t -> exists g, In g D /\ srow_key su g = srow_key su r.
  Hypothesis H2 : forall g, In g D -> exists r, In r t /\ srow_key su g = srow_key su r.
  Notation df := (pandas_table t). Notation df' := (pandas_table D).
  Lemma in_s c : In c s -> In c su. Proof. intros H. apply in_or_app. now left. Qed.
  Lemma in_u : In u su. Proof. apply in_or_app. right. now left. Qed.
  Lemma su_ne' : su <> []. Proof. intros E. apply app_eq_nil in E as [_ E]. discriminate. Qed.
  Lemma unit_keys_In T K : In K (group_keys su (pandas_table T)) <-> exists r, In r T /\ srow_key su r = List.map Some K.
  Proof.
    rewrite L_SqlLeaf2.group_keys_In. split.
    - intros [[E _]|[_ (r & Hr & HK)]]; [destruct (su_ne' E)|]. apply in_map_iff in Hr as (r' & <- & Hr). apply row_key_pandas in HK. eauto.
    - intros (r & Hr & HK). right. split; [exact su_ne'|]. exists (pandas_row r). split; [now apply in_map|now apply row_key_pandas].
  Qed.
  Lemma same_units : group_keys su df' = group_keys su df.
  Proof.
    assert (forall T, StronglySorted klt (group_keys su T)) as Hs. { intros T. pose proof su_ne' as N. unfold group_keys. destruct su; [congruence|]. apply sort_uniq_sorted. }
    apply ksorted_ext; auto. intros K. rewrite !unit_keys_In. split.
    - intros (g & Hg & E). destruct (H2 g Hg) as (r & Hr & Er). exists r. split; [exact Hr|congruence].
    - intros (r & Hr & E). destruct (H1 r Hr) as (g & Hg & Er). exists g. split; [exact Hg|congruence].
  Qed.
  Lemma same_groups : unit_groups s u df' = unit_groups s u df.
  Proof. unfold unit_groups. cbn zeta. now rewrite same_units. Qed.
  Lemma units_of (T : stable) ds : boot_psample s (Some u) (pandas_table T) ds = pandas_table (rows_of s u (sample_groups (unit_groups s u (pandas_table T)) ds) T).
  Proof.
    unfold boot_psample, sample_by_unit, rows_of_units, rows_of. unfold pandas_table at 3. generalize (sample_groups (unit_groups s u (pandas_table T)) ds). intros C.
    induction C as [|c C IH]; [reflexivity|]. cbn [flat_map]. rewrite map_app, IH. f_equal. apply slice_pandas.
  Qed.
  Lemma groups_in ds c : In c (sample_groups (unit_groups s u df) ds) -> In c (group_keys su df).
  Proof.
    assert (forall g, In g (unit_groups s u df) -> forall c, In c g -> In c (group_keys su df)) as H.
    { intros g Hg c0 Hc. unfold unit_groups in Hg. cbn zeta in Hg. apply in_map_iff in Hg as (k & <- & _). now apply filter_In in Hc. }
    revert ds H. generalize (unit_groups s u df). intros gs. induction gs as [|g gs IH]; intros [|d ds] H Hc; try destruct Hc. cbn [sample_groups] in Hc. apply in_app_or in Hc as [Hc|Hc].
    - apply (H g (or_introl eq_refl)). unfold pick in Hc. apply in_flat_map in Hc as (j & _ & Hc). destruct (nth_error g j) eqn:E; [|destruct Hc]. destruct Hc as [<-|[]]. eapply nth_error_In; eauto.
    - apply (IH ds); [intros g' Hg'; apply H; now right|exact Hc].
  Qed.
  Lemma key_len c : In c (group_keys su df) -> List.length c = List.length su.
  Proof. intros H. apply unit_keys_In in H as (r & _ & E). apply (f_equal (@List.length _)) in E. unfold srow_key in E. now rewrite !map_length in E. Qed.

  (** ** Each unit is one row *)
  Section Rows.
    Hypothesis He : e = [].
    Lemma nd : NoDup (List.map (srow_key su) D). Proof. rewrite He, app_nil_r in Hnd. exact Hnd. Qed.
    Definition kof (r : srow) : list string := match row_key su (pandas_row r) with Some K => K | None => [] end.
    Lemma kof_eq r : In r D -> srow_key su r = List.map Some (kof r).
    Proof.
      intros Hr. destruct (srow_key_labels su r) as [K E]; [intros c Hc; now apply HlabD|]. unfold kof. rewrite (proj2 (row_key_pandas su r K) E). exact E.
    Qed.
    Lemma one_row r : In r D -> M_SqlLeaf.group su (List.map Some (kof r)) D = [r].
    Proof.
      intros Hr. rewrite <- kof_eq by exact Hr. unfold M_SqlLeaf.group. pose proof nd as Hn. clear - Hr Hn. induction D as [|g D0 IH]; [destruct Hr|]. cbn [List.map] in Hn. inversion Hn as [|? ? Hg Hn']; subst. cbn [filter].
      destruct Hr as [->|Hr].
      - destruct (skey_dec _ _) as [_|]; [|congruence]. f_equal. apply L_OpsA.filter_none. intros x Hx. destruct (skey_dec _ _) as [E|]; [|reflexivity]. exfalso. apply Hg. rewrite <- E. now apply in_map.
      - destruct (skey_dec _ _) as [E|]; [exfalso; apply Hg; rewrite E; now apply in_map|]. now apply IH.
    Qed.
    Lemma rows_of_kof R : incl R D -> rows_of s u (List.map kof R) D = R.
    Proof. unfold rows_of. induction R as [|r R IH]; intros H; [reflexivity|]. cbn [List.map flat_map]. rewrite IH by (intros x Hx; apply H; now right). rewrite one_row by (apply H; now left). reflexivity. Qed.
    Definition rof (c : list string) : srow := hd null_row (M_SqlLeaf.group su (List.map Some c) D).
    Lemma rof_in c : In c (group_keys su df) -> In (rof c) D /\ kof (rof c) = c /\ M_SqlLeaf.group su (List.map Some c) D = [rof c].
    Proof.
      intros Hc. rewrite <- same_units in Hc. apply unit_keys_In in Hc as (r & Hr & E). pose proof (kof_eq r Hr) as Ek. rewrite E in Ek. apply some_inj in Ek. subst c. unfold rof. rewrite (one_row r Hr). cbn [hd]. auto.
    Qed.
    Lemma rows_of_rof C : incl C (group_keys su df) -> rows_of s u C D = List.map rof C.
    Proof. unfold rows_of. induction C as [|c C IH]; intros H; [reflexivity|]. cbn [List.map flat_map]. rewrite IH by (intros x Hx; apply H; now right). destruct (rof_in c) as (_ & _ & ->); [apply H; now left|]. reflexivity. Qed.
    (** the slices *)
    Notation Ks := (unit_keys s t u).
    Notation F := (fun k => filter (in_slice (spart s) k) D).
    Notation G := (fun k => filter (fun K => key_eqb (firstn n K) k) (group_keys su df)).
    Lemma kof_first r : In r D -> spart s r = Some (firstn n (kof r)).
    Proof.
      intros Hr. pose proof (kof_eq r Hr) as E. rewrite srow_key_app' in E. apply row_key_pandas. rewrite <- firstn_map, <- E, firstn_app. unfold srow_key at 3. rewrite map_length, Nat.sub_diag. cbn [firstn]. rewrite app_nil_r.
      symmetry. apply firstn_all2. unfold srow_key. now rewrite map_length.
    Qed.
    Lemma same_slices : group_keys s df' = Ks.
    Proof.
      unfold unit_keys. destruct s as [|c0 s0] eqn:Es; [reflexivity|]. rewrite <- Es in *. apply ksorted_ext; [unfold group_keys; rewrite Es; apply sort_uniq_sorted|apply sort_uniq_sorted|].
      intros k. rewrite sort_uniq_In, in_map_iff, L_SqlLeaf2.group_keys_In. split.
      - intros [[E _]|[_ (r & Hr & HK)]]; [rewrite Es in E; discriminate|]. apply in_map_iff in Hr as (r' & <- & Hr). pose proof (kof_first r' Hr) as Ef. unfold spart in Ef. rewrite HK in Ef. injection Ef as ->. exists (kof r'). split; [reflexivity|].
        rewrite <- same_units. apply unit_keys_In. exists r'. split; [exact Hr|now apply kof_eq].
      - intros (K & <- & HK). right. split; [rewrite Es; discriminate|]. destruct (rof_in K HK) as (A & B & _). exists (pandas_row (rof K)). split; [now apply in_map|]. rewrite <- B at 2. now apply kof_first.
    Qed.
    Lemma Ks_nodup : NoDup Ks. Proof. rewrite <- same_slices. apply group_keys_NoDup. Qed.
    Lemma in_F k r : In r (F k) <-> In r D /\ firstn n (kof r) = k.
    Proof.
      rewrite filter_In. unfold in_slice. split; intros [Hr E]; (split; [exact Hr|]); rewrite (kof_first r Hr) in *; now apply key_eqb_eq.
    Qed.
    Lemma F_G k : incl (List.map kof (F k)) (G k).
    Proof. intros c Hc. apply in_map_iff in Hc as (r & <- & Hr). apply in_F in Hr as [Hr E]. apply filter_In. split; [rewrite <- same_units; apply unit_keys_In; exists r; split; [exact Hr|now apply kof_eq]|now apply key_eqb_eq]. Qed.
    Lemma G_F k : incl (List.map rof (G k)) (F k).
    Proof. intros r Hr. apply in_map_iff in Hr as (c & <- & Hc). apply filter_In in Hc as [Hc E]. destruct (rof_in c Hc) as (A & B & _). apply in_F. split; [exact A|]. rewrite B. now apply key_eqb_eq. Qed.
    Lemma FG_len k : List.length (F k) = List.length (G k).
    Proof.
      assert (NoDup D) as HD by (apply (NoDup_map_inv (srow_key su)); exact nd).
      transitivity (List.length (List.map kof (F k))); [symmetry; apply map_length|]. apply Nat.le_antisymm.
      - apply NoDup_incl_length; [|exact (F_G k)]. apply nodup_map_in; [|now apply NoDup_filter]. intros x y Hx Hy E. apply in_F in Hx as [Hx _]. apply in_F in Hy as [Hy _]. pose proof (one_row x Hx) as Ex. rewrite E, (one_row y Hy) in Ex. congruence.
      - rewrite map_length. transitivity (List.length (List.map rof (G k))); [rewrite map_length; apply Nat.le_refl|]. apply NoDup_incl_length; [|exact (G_F k)]. apply nodup_map_in; [|apply NoDup_filter, group_keys_NoDup].
        intros x y Hx Hy E. apply filter_In in Hx as [Hx _]. apply filter_In in Hy as [Hy _]. destruct (rof_in x Hx) as (_ & Bx & _). destruct (rof_in y Hy) as (_ & By & _). congruence.
    Qed.
    Lemma pick_incl {A} (g : list A) d : incl (pick g d) g.
    Proof. intros x Hx. unfold pick in Hx. apply in_flat_map in Hx as (j & _ & Hx). destruct (nth_error g j) eqn:E; [|destruct Hx]. destruct Hx as [<-|[]]. eapply nth_error_In; eauto. Qed.
    Lemma sizes_F : draw_sizes s None df' = List.map (fun k => List.length (F k)) Ks.
    Proof. rewrite row_sizes, same_slices. reflexivity. Qed.
    Lemma sizes_G : draw_sizes s (Some u) df = List.map (fun k => List.length (G k)) Ks.
    Proof. unfold draw_sizes, unit_groups, unit_keys. cbn zeta. now rewrite map_map. Qed.
    Lemma groups_G : unit_groups s u df = List.map G Ks.
    Proof. reflexivity. Qed.
    Lemma flat_maps {A B} (f : A -> B) (g : list string -> list A) l : List.map f (flat_map g l) = flat_map (fun k => List.map f (g k)) l.
    Proof. induction l as [|k l IH]; [reflexivity|]. cbn [flat_map]. now rewrite map_app, IH. Qed.
    Lemma flat_ext_in {A B} (f g : A -> list B) l : (forall a, In a l -> f a = g a) -> flat_map f l = flat_map g l.
    Proof. induction l as [|a l IH]; intros H; [reflexivity|]. cbn [flat_map]. rewrite (H a (or_introl eq_refl)), IH; [reflexivity|]. intros b Hb. apply H. now right. Qed.
    Lemma row_to_unit ds' : possible_draw (draw_sizes s None df') ds' -> exists ds, possible_draw (draw_sizes s (Some u) df) ds /\
      boot_psample s None df' ds' = pandas_table (rows_of s u (sample_groups (unit_groups s u df) ds) D).
    Proof.
      rewrite sizes_F. intros H. destruct (draw_as_map F Ks ds' Ks_nodup H) as (D0 & -> & HD0).
      destruct (choose_keys (fun k d => List.length d = List.length (G k) /\ Forall (fun x => (x < List.length (G k))%nat) d /\ pick (G k) d = List.map kof (pick (F k) (D0 k))) [] Ks) as [D1 HD1].
      { intros k Hk. destruct (HD0 k Hk) as [A B]. destruct (pick_positions (G k) (List.map kof (pick (F k) (D0 k)))) as (d & P1 & P2 & P3).
        - intros c Hc. apply (F_G k). apply in_map_iff in Hc as (r & <- & Hr). apply in_map. now apply pick_incl in Hr.
        - exists d. split; [|auto]. rewrite P1, map_length, pick_length by exact B. rewrite A. apply FG_len. }
      exists (List.map D1 Ks). split; [rewrite sizes_G; apply map_is_draw; intros k Hk; destruct (HD1 k Hk) as (A & B & _); auto|].
      rewrite row_groups, same_slices. f_equal. rewrite groups_G, !sample_groups_maps.
      rewrite (flat_ext_in (fun k => pick (G k) (D1 k)) (fun k => List.map kof (pick (F k) (D0 k)))) by (intros k Hk; apply (HD1 k Hk)).
      rewrite <- flat_maps, rows_of_kof; [reflexivity|]. intros r Hr. apply in_flat_map in Hr as (k & _ & Hr). apply pick_incl in Hr. now apply in_F in Hr.
    Qed.
    Lemma unit_to_row ds : possible_draw (draw_sizes s (Some u) df) ds -> exists ds', possible_draw (draw_sizes s None df') ds' /\
      boot_psample s None df' ds' = pandas_table (rows_of s u (sample_groups (unit_groups s u df) ds) D).
    Proof.
      rewrite sizes_G. intros H. destruct (draw_as_map G Ks ds Ks_nodup H) as (D0 & -> & HD0).
      destruct (choose_keys (fun k d => List.length d = List.length (F k) /\ Forall (fun x => (x < List.length (F k))%nat) d /\ pick (F k) d = List.map rof (pick (G k) (D0 k))) [] Ks) as [D1 HD1].
      { intros k Hk. destruct (HD0 k Hk) as [A B]. destruct (pick_positions (F k) (List.map rof (pick (G k) (D0 k)))) as (d & P1 & P2 & P3).
        - intros r Hr. apply (G_F k). apply in_map_iff in Hr as (c & <- & Hc). apply in_map. now apply pick_incl in Hc.
        - exists d. split; [|auto]. rewrite P1, map_length, pick_length by exact B. rewrite A. symmetry. apply FG_len. }
      exists (List.map D1 Ks). split; [rewrite sizes_F; apply map_is_draw; intros k Hk; destruct (HD1 k Hk) as (A & B & _); auto|].
      rewrite row_groups, same_slices. f_equal. rewrite groups_G, !sample_groups_maps.
      rewrite (flat_ext_in (fun k => pick (F k) (D1 k)) (fun k => List.map rof (pick (G k) (D0 k)))) by (intros k Hk; apply (HD1 k Hk)).
      rewrite <- flat_maps. symmetry. apply rows_of_rof. intros c Hc. apply in_flat_map in Hc as (k & _ & Hc). apply pick_incl in Hc. now apply filter_In in Hc.
    Qed.
  End Rows.

  Notation unit' := (match e with [] => None | _ => Some u end).
  Theorem to_units ds' : possible_draw (draw_sizes s unit' df') ds' -> exists ds, possible_draw (draw_sizes s (Some u) df) ds /\
    boot_psample s unit' df' ds' = pandas_table (rows_of s u (sample_groups (unit_groups s u df) ds) D).
  Proof.
    intros H. pose proof row_to_unit as HR. pose proof same_groups as HS. clear Hnd. destruct e as [|c0 e0]; [now apply HR|]. exists ds'. split; [unfold draw_sizes in *; now rewrite HS in H|]. rewrite units_of. now rewrite HS.
  Qed.
  Theorem from_units ds : possible_draw (draw_sizes s (Some u) df) ds -> exists ds', possible_draw (draw_sizes s unit' df') ds' /\
    boot_psample s unit' df' ds' = pandas_table (rows_of s u (sample_groups (unit_groups s u df) ds) D).
  Proof.
    intros H. pose proof unit_to_row as HR. pose proof same_groups as HS. clear Hnd. destruct e as [|c0 e0]; [now apply HR|]. exists ds. split; [unfold draw_sizes in *; now rewrite HS|]. rewrite units_of. now rewrite HS.
  Qed.
End Draw.
