(** C43: unmelt(melt(df)) = df. *)
From Coq Require Import String List Bool Arith Lia.
From Verif Require Import M_Melt L_Melt.
Import ListNotations.
Open Scope string_scope.
Open Scope list_scope.
(** A result frame: at least one metric and one row, distinct metric names, every metric with the same distinct
    sub-columns and a cell per row; flat exactly if the sub-column is "Value" alone; split by named columns, or the
    single row 0 of a result without split_by. *)
Record result_frame {V} (falsy : V -> bool) (zero : V) (w : wide V) : Prop := {
  rf_metrics : w_cols w <> []; rf_rows : w_index w <> []; rf_names : NoDup (List.map fst (w_cols w));
  rf_subs : exists subs, subs <> [] /\ NoDup subs /\ (w_flat w = true <-> subs = ["Value"]) /\
     forall m, In m (w_cols w) -> List.map fst (snd m) = subs /\ forall c, In c (snd m) -> List.length (snd c) = List.length (w_index w);
  rf_index : w_levels w <> [] /\ (forall n, In n (w_levels w) -> n <> None) /\ (forall r, In r (w_index w) -> List.length r = List.length (w_levels w)) \/
     w_levels w = [None] /\ w_index w = [[zero]] /\ falsy zero = true }.
Theorem C43_round_trip_partial : forall V (veqb : V -> V -> bool) (falsy : V -> bool) zero w,
  (forall v, veqb v v = true) -> result_frame falsy zero w ->
  exists l, melt veqb falsy w = Some l /\ unmelt veqb zero l = Some w.
Proof.
  intros V veqb falsy zero w HR [HM HW HN (subs & HS0 & HSN & HFL & HS) HX].
  destruct w as [levels idx flat cols]. cbn [w_cols w_index w_flat w_levels] in *.
  assert (EC : unique (List.concat (List.map (fun m => List.map fst (snd m)) cols)) = subs).
  { assert (E : List.map (fun m => List.map fst (snd m)) cols = repeat subs (List.length cols)).
    { clear - HS. induction cols as [|m cols IH]; [reflexivity|]. cbn. rewrite (proj1 (HS m (or_introl eq_refl))). f_equal. apply IH. intros; apply HS; now right. }
    rewrite E. destruct cols as [|m cols]; [congruence|]. cbn [List.length]. now apply unique_repeat. }
  assert (ER : melt_raw (Build_wide levels idx flat cols) = {| l_levels := levels; l_cols := subs; l_rows := List.concat (List.map (rows_of (Build_wide levels idx flat cols) subs) cols) |}).
  { unfold melt_raw. cbn [w_cols w_levels w_index]. rewrite EC. reflexivity. }
  set (w := Build_wide levels idx flat cols) in *.
  (* the cells of a metric, row by row, are its columns *)
  assert (EL : melt veqb falsy w = Some (remove_empty_level veqb falsy (melt_raw w))) by (unfold melt, w; cbn [w_cols]; destruct cols; [congruence|reflexivity]).
  exists (remove_empty_level veqb falsy (melt_raw w)). split; [exact EL|]. rewrite ER.
  assert (FL : (match subs with [c] => String.eqb c "Value" | _ => false end) = flat).
  { destruct flat.
    - rewrite (proj1 HFL eq_refl). reflexivity.
    - destruct subs as [|c [|]]; try reflexivity. apply String.eqb_neq. intros ->. destruct HFL as [_ HFL]. specialize (HFL eq_refl). discriminate. }
  assert (NE : List.concat (List.map (rows_of w subs) cols) <> []).
  { destruct cols as [|m cols]; [congruence|]. cbn. destruct idx as [|r idx]; [congruence|]. cbn. discriminate. }
  assert (COL : forall m, In m cols -> List.map (fun jc => (snd jc, List.map (fun r => nth (fst jc) (snd r) None)
                 (List.map (fun r => (snd (fst r), snd r)) (rows_of w subs m)))) (combine (seq 0 (List.length subs)) subs) = snd m).
  { intros m Hm. destruct (HS m Hm) as [E1 E2].
    rewrite (combine_seq_map (fun j c => (c, List.map (fun r => nth j (snd r) None) (List.map (fun r => (snd (fst r), snd r)) (rows_of w subs m)))) subs 0 "").
    transitivity (List.map (fun i => nth i (snd m) ("", [])) (seq 0 (List.length subs))).
    - apply map_ext_in. intros j Hj. apply in_seq in Hj. cbn [Nat.add].
      assert (LJ : j < List.length (snd m)) by (rewrite <- (map_length fst), E1; lia).
      pose proof (nth_In (snd m) ("", []) LJ) as HI. destruct (nth j (snd m) ("", [])) as [c cells] eqn:EN.
      assert (ECj : nth j subs "" = c) by (rewrite <- E1; change "" with (fst ("", @nil (option V))); rewrite map_nth, EN; reflexivity).
      rewrite ECj. f_equal. rewrite map_map. cbn [snd]. unfold rows_of. rewrite map_map. cbn [snd].
      assert (LC : lookup c (snd m) = Some cells) by (apply lookup_nodup; [now rewrite E1|exact HI]).
      etransitivity; [exact (combine_seq_map (fun i lab => nth j (List.map (fun c0 => match lookup c0 (snd m) with Some cells0 => nth i cells0 None | None => None end) subs) None) (w_index w) 0 [])|].
      transitivity (List.map (fun i => nth i cells None) (seq 0 (List.length cells))); [|apply map_nth_seq].
      rewrite (E2 _ HI : List.length cells = List.length idx). unfold w. cbn [w_index]. apply map_ext. intros i. cbn [Nat.add].
      rewrite (nth_indep _ None (match lookup "" (snd m) with Some cells0 => nth i cells0 None | None => None end)) by (rewrite map_length; lia).
      rewrite (map_nth (fun c0 => match lookup c0 (snd m) with Some cells0 => nth i cells0 None | None => None end)). now rewrite ECj, LC.
    - rewrite <- E1, map_length. apply map_nth_seq. }
  assert (IDX : forall m, List.map fst (List.map (fun r : string * list V * list (option V) => (snd (fst r), snd r)) (rows_of w subs m)) = idx).
  { intros m. rewrite map_map. unfold rows_of. rewrite map_map. cbn [fst snd]. rewrite (combine_seq_map (fun _ (l : list V) => l) (w_index w) 0 []). apply map_nth_seq. }
  destruct HX as [(HL0 & HLN & HLR)|(-> & -> & HZ)].
  - (* split *)
    assert (RE : remove_empty_level veqb falsy {| l_levels := levels; l_cols := subs; l_rows := List.concat (List.map (rows_of w subs) cols) |} =
                 {| l_levels := levels; l_cols := subs; l_rows := List.concat (List.map (rows_of w subs) cols) |}).
    { unfold remove_empty_level. cbn [l_rows l_levels l_cols]. set (drop := List.map _ (combine (seq 0 (List.length levels)) levels)).
      assert (HD : Forall (fun b => b = false) drop).
      { unfold drop. apply Forall_forall. intros b Hb. apply in_map_iff in Hb. destruct Hb as ([i n] & <- & Hi). apply in_combine_r in Hi. cbn. apply HLN in Hi. destruct n; [reflexivity|congruence]. }
      assert (LD : List.length drop = List.length levels) by (unfold drop; rewrite map_length, combine_length, seq_length; lia).
      f_equal; [now apply keep_all|]. rewrite <- map_id. apply map_ext_in. intros [[n lab] cs] Hr. cbn. rewrite keep_all; [reflexivity| |exact HD].
      rewrite LD. symmetry. apply HLR. apply in_concat in Hr. destruct Hr as (s & Hs & Hr). apply in_map_iff in Hs. destruct Hs as (m & <- & Hm).
      rewrite <- (IDX m). apply (in_map (fun r : string * list V * list (option V) => (snd (fst r), snd r))) in Hr. apply (in_map fst) in Hr. exact Hr. }
    rewrite RE. unfold unmelt. cbn [l_rows l_levels l_cols]. destruct (List.concat (List.map (rows_of w subs) cols)) as [|r0 rows] eqn:ERW; [congruence|]. rewrite <- ERW.
    rewrite FL. destruct levels as [|lv levels]; [congruence|].
    assert (NM : unique (List.map (fun r => fst (fst r)) (List.concat (List.map (rows_of w subs) cols))) = List.map fst cols).
    { rewrite concat_map, map_map. apply (unique_const_blocks fst); [|exact HN]. intros m Hm. unfold rows_of. rewrite map_map. cbn [fst]. split.
      - unfold w. cbn [w_index]. destruct idx as [|r idx]; [congruence|]. cbn. discriminate.
      - intros x Hx. apply in_map_iff in Hx. destruct Hx as (y & <- & _). reflexivity. }
    rewrite NM. set (L := {| l_levels := lv :: levels; l_cols := subs; l_rows := List.concat (List.map (rows_of w subs) cols) |}).
    assert (BL : forall m, In m cols -> block L (fst m) = List.map (fun r => (snd (fst r), snd r)) (rows_of w subs m)) by (intros m Hm; now apply block_raw).
    assert (JI : join_index veqb (List.map (fun n => List.map fst (block L n)) (List.map fst cols)) = idx).
    { rewrite map_map. assert (E : List.map (fun m => List.map fst (block L (fst m))) cols = repeat idx (List.length cols)).
      { assert (EG : forall cs, (forall m, In m cs -> In m cols) -> List.map (fun m => List.map fst (block L (fst m))) cs = repeat idx (List.length cs)); [|apply EG; auto].
        induction cs as [|m cs IH]; intros HI; [reflexivity|]. cbn [List.map repeat List.length]. rewrite (BL m) by (apply HI; now left). rewrite IDX. f_equal. apply IH. intros; apply HI; now right. }
      rewrite E. destruct cols as [|m cs]; [congruence|]. cbn [List.length repeat join_index].
      assert (FA : forallb (index_eqb veqb idx) (repeat idx (List.length cs)) = true). { apply forallb_forall. intros x Hx. apply repeat_spec in Hx. subst x. now apply index_refl. }
      now rewrite FA. }
    rewrite JI. f_equal. unfold w. f_equal. rewrite map_map. transitivity (List.map (fun m => m) cols); [|apply map_id]. apply map_ext_in. intros m Hm. rewrite (BL m Hm).
    destruct m as [n ss]. cbn [fst]. f_equal. etransitivity; [|exact (COL (n, ss) Hm)]. apply map_ext. intros [j c]. cbn [fst snd]. f_equal.
    unfold column. rewrite IDX. now rewrite (index_refl veqb HR idx).
  - (* one row *)
    assert (RW : List.concat (List.map (rows_of w subs) cols) = List.map (fun m => (fst m, [zero], List.map (fun c => match lookup c (snd m) with Some cells => nth 0 cells None | None => None end) subs)) cols).
    { clear. unfold rows_of, w. cbn [w_index List.length seq combine List.map fst snd]. induction cols as [|m cols IH]; [reflexivity|]. cbn [List.map List.concat app]. now rewrite IH. }
    rewrite RW. unfold remove_empty_level. cbn [l_rows l_levels l_cols List.length seq combine List.map fst snd]. rewrite map_map. cbn [fst snd].
    assert (EM : empty_level veqb falsy 0 None (List.map (fun _ : string * list (string * list (option V)) => [zero]) cols) = true).
    { unfold empty_level. destruct cols as [|m cs]; [congruence|]. cbn [List.map nth_error]. rewrite HZ. cbn [andb]. apply forallb_forall. intros x [<-|Hx]; [cbn; apply HR|].
      apply in_map_iff in Hx. destruct Hx as (y & <- & _). cbn. apply HR. }
    rewrite EM. unfold keep. cbn [combine filter fst negb List.map]. unfold unmelt. cbn [l_rows l_levels l_cols]. rewrite !map_map. cbn [fst snd].
    destruct cols as [|m0 cs] eqn:EC0; [congruence|]. rewrite <- EC0 in *. rewrite FL.
    assert (W : List.map (fun m => (fst m, combine subs (List.map (fun c => [c]) (List.map (fun c => match lookup c (snd m) with Some cells => nth 0 cells None | None => None end) subs)))) cols = cols).
    { rewrite <- map_id. apply map_ext_in. intros [n ss] Hm. cbn [fst snd]. f_equal. destruct (HS _ Hm) as [E1 E2]. cbn [snd] in *. cbn in E2. rewrite map_map.
      assert (HND : NoDup (List.map fst ss)) by now rewrite E1. clear - E1 E2 HND. rewrite <- E1.
      assert (K : forall l, (forall p, In p l -> In p ss) -> combine (List.map fst l) (List.map (fun c => [match lookup c ss with Some cells => nth 0 cells None | None => None end]) (List.map fst l)) = l).
      { induction l as [|[c cells] l IH]; intros HI; [reflexivity|]. cbn [List.map fst combine]. f_equal; [|apply IH; intros; apply HI; now right].
        rewrite (lookup_nodup ss c cells HND) by (apply HI; now left). f_equal. specialize (E2 (c, cells) (HI _ (or_introl eq_refl))). cbn in E2. destruct cells as [|x [|]]; try discriminate. reflexivity. }
      apply K. auto. }
    unfold w. f_equal. rewrite EC0 at 1. cbn [List.map]. rewrite <- EC0. f_equal. rewrite W. reflexivity.
Qed.
Print Assumptions C43_round_trip_partial.
(** Two metrics by one column; and two metrics without split_by. *)
Definition ex_split : wide nat := {| w_levels := [Some "grp"]; w_index := [[1]; [2]]; w_flat := true;
  w_cols := [("sum(x)", [("Value", [Some 3; Some 4])]); ("count(x)", [("Value", [Some 1; None])])] |}.
Definition ex_whole : wide nat := {| w_levels := [None]; w_index := [[0]]; w_flat := false;
  w_cols := [("sum(x)", [("Value", [Some 3]); ("SE", [Some 4])]); ("count(x)", [("Value", [Some 1]); ("SE", [None])])] |}.
Example C43_example : result_frame (Nat.eqb 0) 0 ex_split /\ result_frame (Nat.eqb 0) 0 ex_whole /\
  exists l, melt Nat.eqb (Nat.eqb 0) ex_split = Some l /\
    l_rows l = [("sum(x)", [1], [Some 3]); ("sum(x)", [2], [Some 4]); ("count(x)", [1], [Some 1]); ("count(x)", [2], [None])].
Proof.
  split; [|split].
  - constructor; cbn; try discriminate.
    + repeat constructor; cbn; intuition discriminate.
    + exists ["Value"]. repeat split; try discriminate; try (repeat constructor; cbn; tauto); destruct H as [<-|[<-|[]]]; try reflexivity; intros c [<-|[]]; reflexivity.
    + left. repeat split; try discriminate; [intros n [<-|[]]; discriminate|intros r [<-|[<-|[]]]; reflexivity].
  - constructor; cbn; try discriminate.
    + repeat constructor; cbn; intuition discriminate.
    + exists ["Value"; "SE"]. repeat split; try discriminate; try (repeat constructor; cbn; intuition discriminate); destruct H as [<-|[<-|[]]]; try reflexivity; intros c [<-|[<-|[]]]; reflexivity.
    + right. repeat split; reflexivity.
  - eexists. split; reflexivity.
Qed.
(** A frame without rows melts, and then unmelt raises. *)
Theorem C43_no_rows_refuted : forall V (veqb : V -> V -> bool) falsy zero w, w_cols w <> [] -> w_index w = [] ->
  exists l, melt veqb falsy w = Some l /\ unmelt veqb zero l = None.
Proof.
  intros V veqb falsy zero w HC HI. unfold melt. destruct (w_cols w) as [|m cs] eqn:E; [congruence|]. eexists. split; [reflexivity|].
  assert (R : l_rows (remove_empty_level veqb falsy (melt_raw w)) = []); [|unfold unmelt; now rewrite R].
  unfold remove_empty_level, melt_raw. cbn [l_rows]. rewrite HI. cbn [List.length seq combine List.map]. clear. induction (w_cols w) as [|m l IH]; [reflexivity|exact IH].
Qed.
(** A metric without a sub-column the others have comes back with it, all missing. *)
Theorem C43_sub_columns_refuted : exists (w w' : wide nat) l, melt Nat.eqb (Nat.eqb 0) w = Some l /\ unmelt Nat.eqb 0 l = Some w' /\
  List.map fst (w_cols w) = List.map fst (w_cols w') /\ lookup "count(x)" (w_cols w) = Some [("Value", [Some 1])] /\
  lookup "count(x)" (w_cols w') = Some [("Value", [Some 1]); ("SE", [None])].
Proof.
  exists {| w_levels := [Some "grp"]; w_index := [[1]]; w_flat := false; w_cols := [("sum(x)", [("Value", [Some 3]); ("SE", [Some 4])]); ("count(x)", [("Value", [Some 1])])] |}.
  do 2 eexists. repeat split; reflexivity.
Qed.
Print Assumptions C43_sub_columns_refuted.
