(** Lemmas for C68: the replicates of mixed mode. *)
From Coq Require Import Reals List Bool String Arith ZArith Permutation Lia.
From Verif Require Import M_Num M_Frame L_Frame M_Leaf M_Ops L_OpsA L_OpsB L_OpsC M_Slices S_Slices L_Slices M_Jackknife S_Jackknife L_Jackknife2 L_Jackknife3 M_SqlGlobal S_SqlGlobal M_SqlLeaf S_SqlLeaf L_SqlLeaf L_SqlLeaf2 M_SqlOps S_SqlOps L_SqlOps L_SqlOps7 L_SqlSort L_SqlScope L_SqlJack2 L_SqlJack3 M_SqlJackknife S_SqlJackknife L_SqlJack1 L_SqlJack4 L_SqlJack5 L_SqlJack6 L_SqlJack7 M_SqlMixed S_SqlMixed L_SqlMixed M_SqlMixedJack L_SqlMixedJack1.
Import ListNotations.
Open Scope string_scope.
Open Scope list_scope.

Lemma slookup_flat {B} (F : B -> rcolumn) K (L : list B) b0 : (forall b, In b L -> b <> b0 -> ~ In K (List.map fst (F b))) -> In b0 L -> (forall a b : B, {a = b} + {a <> b}) ->
  slookup K (flat_map F L) = slookup K (F b0).
Proof.
  intros H Hi dec. induction L as [|b L IH]; [destruct Hi|]. cbn [flat_map]. destruct (dec b b0) as [->|Hb].
  - destruct (in_dec skey_dec K (List.map fst (F b0))) as [Hk|Hk].
    + clear IH H Hi. induction (F b0) as [|[k v] l IHl]; [destruct Hk|]. cbn in *. destruct (skey_dec k K) as [|Hn]; [reflexivity|]. apply IHl. destruct Hk; [contradiction|assumption].
    + rewrite slookup_app_None by assumption. destruct (in_dec dec b0 L) as [HL|HL].
      * apply IH; auto. intros b Hb. apply H. now right.
      * rewrite slookup_None; [now rewrite slookup_None|]. intros Hk'. apply in_map_iff in Hk' as (q & <- & Hq). apply in_flat_map in Hq as (b & Hb & Hq). apply (H b); [now right|intros ->; contradiction|]. now apply in_map.
  - rewrite slookup_app_None by (apply H; [now left|exact Hb]). apply IH; [intros b' Hb'; apply H; now right|]. destruct Hi; [contradiction|assumption].
Qed.
Lemma slookup_flat_none {B} (F : B -> rcolumn) K (L : list B) : (forall b, In b L -> ~ In K (List.map fst (F b))) -> slookup K (flat_map F L) = NaN.
Proof. intros H. apply slookup_None. intros Hk. apply in_map_iff in Hk as (q & <- & Hq). apply in_flat_map in Hq as (b & Hb & Hq). apply (H b Hb). now apply in_map. Qed.
Lemma lookup_filter (P : list string * num -> bool) K (fr : rframe) : (forall v, P (K, v) = P (K, NaN)) -> lookup K (filter P fr) = if P (K, NaN) then lookup K fr else NaN.
Proof.
  intros HP. induction fr as [|[k v] fr IH]; cbn [filter lookup]; [now destruct (P _)|]. destruct (key_eqb k K) eqn:E.
  - apply key_eqb_eq in E as ->. rewrite HP. destruct (P (K, NaN)) eqn:EP; [cbn [lookup]; assert (key_eqb K K = true) as -> by (now apply key_eqb_eq); reflexivity|]. exact IH.
  - destruct (P (k, v)); cbn [lookup]; [rewrite E|]; exact IH.
Qed.
Lemma app_len_eq {A} (a b c d : list A) : List.length a = List.length c -> a ++ b = c ++ d -> a = c /\ b = d.
Proof. intros H E. now apply app_len_inj. Qed.

Section Main.
  Variables (parse : string -> cond) (dbo : query -> list (skey * option R) -> list (skey * option R)) (dbd : list bucket -> list bucket).
  Variables (psort : cum_how -> bool -> nat -> rframe -> rframe) (m : otree) (s : list string) (unit : string) (t : stable).
  Hypothesis Hdb : some_order dbo.
  Hypothesis Hdd : forall l, Permutation (dbd l) l.
  Hypothesis Hps : pandas_sorts psort.
  Hypothesis Hparse : forall f, ~ In resample_idx (cond_labels (parse f)).
  Hypothesis Hsup : supported_tree (s ++ [resample_idx]) m.
  Hypothesis Hunit : forall r, In r t -> slab r unit <> None.
  Hypothesis Hlab : forall r c, In r t -> In c s -> slab r c <> None.
  Local Notation lo k x := (left_out s unit k x t).
  Notation n := (List.length s).
  Notation df := (pandas_table t).
  Hypothesis Hmix : forall k x, (exists r, In r t /\ slab r unit = Some x) -> left_out s unit k x t <> [] ->
    child_fits parse psort m [] (left_out s unit k x t) /\ every_leaf_has_rows parse m (left_out s unit k x t) /\ mixed_fits parse m [] [] (left_out s unit k x t).
  Hypothesis Hex : exists k x, unit_in s unit k x t /\ left_out s unit k x t <> [].

  Lemma Hparts : forall k x, unit_in s unit k x t -> left_out s unit k x t <> [] ->
    child_fits parse psort m [] (left_out s unit k x t) /\ every_leaf_has_rows parse m (left_out s unit k x t).
  Proof. intros k x (r & H1 & _ & H2) Hn. destruct (Hmix k x) as (A & B & _); eauto. Qed.
  Notation su := (dbd (buckets s unit t)).
  Lemma su_in k x : In (List.map Some k, Some x) su <-> unit_in s unit k x t.
  Proof. rewrite <- (bucket_in s unit t k x). split; apply Permutation_in; [|symmetry]; apply Hdd. Qed.
  Lemma su_len b : In b su -> List.length (fst b) = n.
  Proof. intros H. apply (Permutation_in _ (Hdd _)) in H. now apply bucket_len in H. Qed.
  Definition units := first_seen (List.map snd su).
  Lemma units_in x : In x units <-> exists r, In r t /\ slab r unit = x.
  Proof.
    unfold units. rewrite first_seen_In, in_map_iff. split.
    - intros (b & <- & Hb). apply (Permutation_in _ (Hdd _)) in Hb. unfold buckets in Hb. apply nodup_In, in_map_iff in Hb as (r & <- & Hr). exists r. auto.
    - intros (r & Hr & E). exists (srow_key s r, x). split; [reflexivity|]. apply (Permutation_in _ (Permutation_sym (Hdd _))). unfold buckets. apply nodup_In, in_map_iff. exists r. rewrite E. auto.
  Qed.
  Lemma units_some x : In x units -> exists y, x = Some y /\ exists r, In r t /\ slab r unit = Some y.
  Proof. intros H. apply units_in in H as (r & Hr & E). destruct x as [y|]; [eauto|]. now apply Hunit in Hr. Qed.
  Lemma without_group k x : M_SqlLeaf.group s (List.map Some k) (without_unit unit (Some x) t) = lo k x.
  Proof.
    unfold M_SqlLeaf.group, without_unit, left_out. rewrite L_SqlLeaf2.filter_filter. apply filter_ext_in. intros r Hr. rewrite andb_comm. f_equal. cbn [unit_text]. specialize (Hunit r Hr).
    destruct (label_dec (slab r unit) (Some x)) as [E|E], (differs (Some x) (slab r unit)) eqn:Ed; try reflexivity.
    - apply differs_true in Ed as (a & b & E1 & E2 & Hn). rewrite E in E2. congruence.
    - exfalso. destruct (slab r unit) as [y|]; [|congruence]. assert (differs (Some x) (Some y) = true) as Et; [|congruence]. apply differs_true. exists x, y. split; [reflexivity|]. split; [reflexivity|]. congruence.
  Qed.
  Lemma without_ne x : without_unit unit (Some x) t <> [].
  Proof.
    destruct Hex as (k & x0 & (r0 & H1 & H2 & H3) & Hne). intros E. assert (forall r, In r t -> slab r unit = Some x) as Hall.
    { intros r Hr. destruct (label_dec (slab r unit) (Some x)) as [|Hn]; [assumption|]. exfalso. assert (In r (without_unit unit (Some x) t)) as Hi; [|rewrite E in Hi; destruct Hi].
      apply filter_In. split; [exact Hr|]. apply differs_true. specialize (Hunit r Hr). destruct (slab r unit) as [y|] eqn:Ey; [|congruence]. exists x, y. cbn. split; [reflexivity|]. split; [reflexivity|]. congruence. }
    apply Hne. assert (x0 = x) as ->. { rewrite (Hall r0 H1) in H3. congruence. }
    destruct (left_out s unit k x t) as [|r l] eqn:El; [reflexivity|]. exfalso. assert (In r (left_out s unit k x t)) as Hr by (rewrite El; now left). apply left_out_in in Hr as (Hr & _ & Hn). now apply Hn, Hall.
  Qed.
  Notation p := (s ++ [resample_idx]).
  Lemma fresh : ~ In resample_idx s. Proof. apply (idx_fresh m s Hsup). Qed.

  (** UNNEST(units) JOIN table *)
  Lemma res_row c r' : (forall x, In x c -> In x units) -> In r' (resampled unit t c) -> exists k x r, r' = relabel (Some x) r /\ In (Some x) c /\ In r (lo k x).
  Proof.
    intros Hc H. unfold resampled in H. apply in_flat_map in H as (x & Hx & H). apply in_map_iff in H as (r & <- & H). apply filter_In in H as [Hr Hd]. apply differs_true in Hd as (a & b & -> & E & Hn).
    destruct (key_here s t Hlab r Hr) as [k Ek]. exists k, a, r. split; [reflexivity|]. split; [exact Hx|]. apply left_out_in. repeat split; auto. rewrite E. congruence.
  Qed.
  Lemma res_group c k x : NoDup c -> List.length k = n -> M_SqlLeaf.group p (List.map Some (k ++ [x])) (resampled unit t c) = if in_dec label_dec (Some x) c then List.map (relabel (Some x)) (lo k x) else [].
  Proof.
    intros Hn Hk. unfold resampled, M_SqlLeaf.group. induction c as [|y c IH]; [reflexivity|]. inversion Hn as [|? ? Hy Hn']; subst. cbn [flat_map]. rewrite filter_app, (IH Hn').
    assert (filter (fun r => if skey_dec (srow_key p r) (List.map Some (k ++ [x])) then true else false) (List.map (relabel y) (filter (fun r => differs y (slab r unit)) t)) =
            if label_dec y (Some x) then List.map (relabel (Some x)) (lo k x) else []) as ->.
    { rewrite filter_map_comm, L_SqlLeaf2.filter_filter. destruct (label_dec y (Some x)) as [->|Hyx].
      - f_equal. rewrite <- without_group. unfold M_SqlLeaf.group, without_unit. rewrite L_SqlLeaf2.filter_filter. apply filter_ext. intros r. cbn [unit_text]. f_equal.
        rewrite srow_key_idx by apply fresh. rewrite map_app. cbn [List.map]. destruct (skey_dec (srow_key s r ++ [Some x]) (List.map Some k ++ [Some x])) as [E|E], (skey_dec (srow_key s r) (List.map Some k)) as [E'|E']; try reflexivity.
        + apply app_inj_tail in E as [E _]. contradiction.
        + now rewrite E' in E.
      - rewrite filter_none; [reflexivity|]. intros r _. rewrite srow_key_idx by apply fresh. rewrite map_app. cbn [List.map].
        destruct (skey_dec (srow_key s r ++ [y]) (List.map Some k ++ [Some x])) as [E|E]; [|apply andb_false_r]. apply app_inj_tail in E as [_ E]. contradiction. }
    destruct (label_dec y (Some x)) as [->|Hyx].
    - destruct (in_dec label_dec (Some x) c) as [Hi|_]; [contradiction|]. destruct (in_dec label_dec (Some x) (Some x :: c)) as [_|Hi]; [apply app_nil_r|]. exfalso. apply Hi. now left.
    - cbn [app]. destruct (in_dec label_dec (Some x) c) as [Hi|Hi], (in_dec label_dec (Some x) (y :: c)) as [Hi'|Hi']; try reflexivity; exfalso.
      + apply Hi'. now right.
      + destruct Hi'; congruence.
  Qed.

  Variable R : rframe.
  Hypothesis ER : op_compute parse psort m p (pandas_table (jk_general s unit t)) = Some R.
  Definition V (k g : list string) (x : option string) : num := match x with Some y => lookup (k ++ y :: g) R | None => NaN end.
  Lemma V_out k g x : ~ (unit_in s unit k x t /\ lo k x <> []) -> List.length k = n -> V k g (Some x) = NaN.
  Proof.
    intros Hn Hk. destruct (jk_whole parse psort m s unit t Hps Hparse Hsup Hunit Hlab Hparts Hex) as (R' & ER' & _ & Hkeys & _). rewrite ER in ER'. injection ER' as <-.
    cbn [V]. apply lookup_None. intros Hi. apply in_map_iff in Hi as ([q v] & E & Hi). cbn [fst] in E. subst q. destruct (Hkeys _ Hi) as (k' & x' & g' & E & Hu & Hne). cbn [fst] in E.
    pose proof (jk_len s unit t k' x' Hu) as Hl. rewrite !app_length in Hl. cbn in Hl. destruct (app_len_inj k k' (x :: g) (x' :: g')) as [E1 E2]; [lia|exact E|]. injection E2 as E2 _. subst. now apply Hn.
  Qed.
  Lemma V_in k g x D : unit_in s unit k x t -> lo k x <> [] -> op_compute parse psort m [] (pandas_table (lo k x)) = Some D -> V k g (Some x) = lookup g D.
  Proof.
    intros Hu Hn ED. destruct (jk_whole parse psort m s unit t Hps Hparse Hsup Hunit Hlab Hparts Hex) as (R' & ER' & Hr & _). rewrite ER in ER'. injection ER' as <-.
    cbn beta in Hr. rewrite (Hr k x Hu Hn) in ED. injection ED as <-. cbn [V]. pose proof (jk_len s unit t k x Hu) as Hl. rewrite !app_length in Hl. cbn in Hl. rewrite lookup_restrict by (rewrite app_length; cbn; lia). now rewrite <- app_assoc.
  Qed.
  Lemma unit_in_dec k x : {unit_in s unit k x t} + {~ unit_in s unit k x t}.
  Proof. destruct (in_dec bucket_dec (List.map Some k, Some x) (buckets s unit t)) as [H|H]; [left|right]; rewrite <- (bucket_in s unit t k x); assumption. Qed.
  Lemma nil_dec {A} (l : list A) : {l = []} + {l <> []}. Proof. destruct l; [left|right]; congruence. Qed.

  (** one unit *)
  Lemma one_value x : (exists r, In r t /\ slab r unit = Some x) -> exists c, loo_one parse dbo psort m s unit su t (Some x) = Some c /\
    forall k g, List.length k = n -> slookup (List.map Some (k ++ g)) c = V k g (Some x).
  Proof.
    intros Hx. pose proof (without_ne x) as Hne. unfold loo_one.
    destruct (list_eq_dec string_dec s []) as [Es|Hs].
    - assert (without_unit unit (Some x) t = lo [] x) as EW. { rewrite <- without_group. unfold M_SqlLeaf.group. rewrite Es. symmetry. apply filter_all. reflexivity. }
      assert (lo [] x <> []) as Hlo by (now rewrite <- EW).
      assert (unit_in s unit [] x t) as Hu. { destruct Hx as (r & H1 & H2). exists r. rewrite Es. auto. }
      destruct (Hmix [] x Hx Hlo) as (_ & _ & HM). pose proof (tree_equal parse dbo psort Hdb m [] [] (lo [] x) HM) as E. rewrite !sub_nil in E.
      destruct (jk_whole parse psort m s unit t Hps Hparse Hsup Hunit Hlab Hparts Hex) as (R' & _ & Hr & _). specialize (Hr [] x Hu Hlo).
      rewrite EW. replace (mixed parse dbo psort m s) with (mixed parse dbo psort m []) by (now rewrite Es). rewrite E, Hr.
      exists (List.map labelled (restrict (S n) ([] ++ [x]) R')). split; [now rewrite Es|]. intros k g Hk. assert (k = []) as -> by (destruct k; [reflexivity|rewrite Es in Hk; discriminate]).
      cbn [app]. rewrite slookup_labelled. symmetry. apply (V_in [] g x _ Hu Hlo). exact Hr.
    - assert (supported_tree s m) as Hss by (apply (sup_s m s Hsup)).
      destruct (whole_of parse dbo psort Hdb Hps m s (without_unit unit (Some x) t) Hs Hne Hss) as (D & ED & _ & HD & HK).
      + intros r Hr. apply filter_In in Hr as [Hr _]. now apply (key_here s t Hlab).
      + intros K HK. rewrite without_group in *. destruct (Hmix K x Hx HK) as (A & B & C). split; [exact C|]. now apply (part_ok parse psort m s Hps Hsup).
      + rewrite ED. eexists. split; [reflexivity|]. intros k g Hk.
        assert (forall q, In q D -> List.length (firstn n (fst q)) = n) as HDl.
        { intros q Hq. specialize (HK q Hq). destruct (M_SqlLeaf.group s _ _) as [|r l] eqn:Eg; [congruence|]. assert (In r (M_SqlLeaf.group s (List.map Some (firstn n (fst q))) (without_unit unit (Some x) t))) as Hr by (rewrite Eg; now left).
          apply filter_In in Hr as [_ Hr]. destruct (skey_dec _ _) as [Er|]; [|discriminate]. apply (f_equal (@List.length _)) in Er. unfold srow_key in Er. rewrite !map_length in Er. now symmetry. }
        set (P := fun b : bucket => match sql_eq (snd b) (Some x) with Some true => true | _ => false end).
        set (F := fun b : bucket => match filter (fun q => if skey_dec (List.map Some (firstn n (fst q))) (fst b) then true else false) D with [] => [(fst b ++ repeat None (List.length (extra_idx m)), NaN)] | rows => List.map labelled rows end).
        assert (slookup (List.map Some (k ++ g)) (flat_map F (filter P su)) = V k g (Some x)) as HG; [|destruct s; [contradiction|exact HG]].
        assert (forall b, In b (filter P su) -> exists sk, b = (sk, Some x) /\ List.length sk = n) as HP.
        { intros [sk y] Hb. apply filter_In in Hb as [Hb Hp]. apply su_len in Hb as Hl. exists sk. split; [|exact Hl]. f_equal. unfold P in Hp. cbn [snd] in Hp. destruct (sql_eq y (Some x)) as [[]|] eqn:E; try discriminate. apply sql_eq_true in E as [-> _]. reflexivity. }
        assert (forall sk, List.length sk = n -> sk <> List.map Some k -> ~ In (List.map Some (k ++ g)) (List.map fst (F (sk, Some x)))) as HF.
        { intros sk Hl Hn Hi. unfold F in Hi. cbn [fst] in Hi.
          assert (forall rest, List.map Some (k ++ g) = sk ++ rest -> False) as Hcon.
          { intros rest E. rewrite map_app in E. apply app_len_eq in E as [E _]; [now apply Hn|]. rewrite map_length. congruence. }
          destruct (filter _ D) as [|q0 rows] eqn:Ef.
          - destruct Hi as [Hi|[]]. cbn in Hi. symmetry in Hi. now apply Hcon in Hi.
          - rewrite <- Ef in Hi. apply in_map_iff in Hi as (q' & E & Hi). apply in_map_iff in Hi as (q & <- & Hq). apply filter_In in Hq as [Hq Hsk]. destruct (skey_dec _ _) as [Esk|]; [|discriminate].
            cbn in E. rewrite <- (firstn_skipn n (fst q)), map_app, Esk in E. symmetry in E. now apply Hcon in E. }
        destruct (unit_in_dec k x) as [Hu|Hu].
        * rewrite (slookup_flat F _ _ (List.map Some k, Some x)); [| |apply filter_In; split; [now apply su_in|unfold P; cbn; now rewrite String.eqb_refl]|apply bucket_dec].
          2:{ intros b Hb Hn. destruct (HP b Hb) as (sk & -> & Hl). apply HF; [exact Hl|]. intros ->. now apply Hn. }
          unfold F. cbn [fst].
          assert (forall fr : rframe, (forall q, In q fr -> List.length (firstn n (fst q)) = n) -> lookup (k ++ g) (filter (fun q => if skey_dec (List.map Some (firstn n (fst q))) (List.map Some k) then true else false) fr) = lookup (k ++ g) fr) as HL.
          { intros fr _. rewrite lookup_filter; [|reflexivity]. cbn [fst]. rewrite firstn_app_len by assumption. now destruct (skey_dec _ _). }
          transitivity (lookup (k ++ g) D).
          { rewrite <- (HL D HDl). destruct (filter _ D) as [|q0 rows]; [|now rewrite slookup_labelled]. cbn. now destruct (skey_dec _ _). }
          destruct (nil_dec (lo k x)) as [El|Hlo].
          -- rewrite V_out; [|intros [_ H]; contradiction|exact Hk]. apply lookup_None. intros Hi. apply in_map_iff in Hi as (q & Eq & Hq). apply HK in Hq. rewrite Eq, firstn_app_len, without_group in Hq by assumption. contradiction.
          -- specialize (HD k). rewrite without_group in HD. specialize (HD Hlo). rewrite (V_in k g x _ Hu Hlo HD). now rewrite lookup_restrict.
        * rewrite V_out; [|tauto|exact Hk]. apply slookup_flat_none. intros b Hb. destruct (HP b Hb) as (sk & -> & Hl). apply HF; [exact Hl|]. intros ->. apply Hu, su_in. now apply filter_In in Hb.
  Qed.

  (** a batch *)
  Lemma batch_value c : c <> [] -> NoDup c -> (forall x, In x c -> In x units) -> exists cols, loo_batch parse dbo psort m s unit su t c = Some cols /\
    forall k g, List.length k = n -> Permutation (present (List.map (slookup (List.map Some (k ++ g))) cols)) (present (List.map (V k g) c)).
  Proof.
    intros Hc Hnd Hin. unfold loo_batch.
    assert (existsb (fun x : option string => match x with None => true | _ => false end) c = false) as ->.
    { destruct (existsb _ c) eqn:E; [|reflexivity]. apply existsb_exists in E as (x & Hx & E). destruct x; [discriminate|]. apply Hin, units_some in Hx as (y & Hy & _). discriminate. }
    assert (resampled unit t c <> []) as HT.
    { destruct c as [|x c']; [contradiction|]. destruct (units_some x (Hin x (or_introl eq_refl))) as (y & -> & _). pose proof (without_ne y) as Hne. unfold resampled. cbn [flat_map]. unfold without_unit in Hne. cbn [unit_text] in Hne. destruct (filter _ t); [contradiction|discriminate]. }
    assert (p <> []) as Hp by (destruct s; discriminate).
    assert (forall K, M_SqlLeaf.group p (List.map Some K) (resampled unit t c) <> [] -> exists k x, K = k ++ [x] /\ List.length k = n /\ In (Some x) c /\ lo k x <> [] /\ M_SqlLeaf.group p (List.map Some K) (resampled unit t c) = List.map (relabel (Some x)) (lo k x)) as HG.
    { intros K HK. destruct (M_SqlLeaf.group p (List.map Some K) (resampled unit t c)) as [|r' l] eqn:Eg; [congruence|]. assert (In r' (M_SqlLeaf.group p (List.map Some K) (resampled unit t c))) as Hr by (rewrite Eg; now left). rewrite <- Eg in *. clear Eg.
      apply filter_In in Hr as [Hr Hk]. destruct (skey_dec _ _) as [Ek|]; [|discriminate]. destruct (res_row c r' Hin Hr) as (k & x & r & -> & Hx & Hlo). pose proof Hlo as Hlo'. apply left_out_in in Hlo' as (Hrt & Esr & _).
      rewrite srow_key_idx, Esr in Ek by apply fresh. assert (K = k ++ [x]) as -> by (apply some_inj; rewrite <- Ek, map_app; reflexivity).
      assert (List.length k = n) as Hl by (apply (f_equal (@List.length _)) in Esr; unfold srow_key in Esr; rewrite !map_length in Esr; now symmetry).
      exists k, x. split; [reflexivity|]. split; [exact Hl|]. split; [exact Hx|]. split; [intros E; cbn beta in *; now rewrite E in Hlo|]. rewrite res_group by assumption. now destruct (in_dec label_dec (Some x) c). }
    destruct (whole_of parse dbo psort Hdb Hps m p (resampled unit t c) Hp HT Hsup) as (D & ED & _ & HD & HK).
    - intros r' Hr. destruct (res_row c r' Hin Hr) as (k & x & r & -> & Hx & Hlo). apply left_out_in in Hlo as (Hrt & Esr & _). exists (k ++ [x]). rewrite srow_key_idx, Esr by apply fresh. now rewrite map_app.
    - intros K HKg. destruct (HG K HKg) as (k & x & -> & Hl & Hx & Hlo & ->). apply Hin, units_some in Hx as (y & Ey & Hy). injection Ey as <-. destruct (Hmix k x Hy Hlo) as (A & B & C).
      split; [apply mixed_relabel; auto; apply (sup_idx m s Hsup)|]. rewrite pandas_relabels. apply (relabel_ok parse psort m s Hps Hparse Hsup); auto; exact (avoids parse psort m s unit t Hsup Hparts Hex).
    - rewrite ED. rewrite app_length in HD, HK. cbn [List.length] in HD, HK. rewrite Nat.add_1_r in HD, HK.
      assert (forall q, In q D -> exists k x g, fst q = k ++ x :: g /\ List.length k = n /\ In (Some x) c /\ lo k x <> []) as HQ.
      { intros q Hq. destruct (HG _ (HK q Hq)) as (k & x & E & Hl & Hx & Hlo & _). exists k, x, (skipn (S n) (fst q)). rewrite <- (firstn_skipn (S n) (fst q)) at 1. rewrite E, <- app_assoc. auto. }
      assert (forall k g x, List.length k = n -> In (Some x) c -> unit_in s unit k x t -> lookup (k ++ x :: g) D = V k g (Some x)) as HV.
      { intros k g x Hk Hx Hu. destruct (nil_dec (lo k x)) as [El|Hlo].
        - rewrite V_out; [|intros [_ H]; contradiction|exact Hk]. apply lookup_None. intros Hi. apply in_map_iff in Hi as (q & Eq & Hq). destruct (HQ q Hq) as (k' & x' & g' & Eq' & Hl' & _ & Hlo). rewrite Eq in Eq'. apply app_len_eq in Eq' as [<- E2]; [|congruence]. injection E2 as <- _. contradiction.
        - pose proof (res_group c k x Hnd Hk) as EG. destruct (in_dec label_dec (Some x) c) as [_|]; [|contradiction]. specialize (HD (k ++ [x])). rewrite EG in HD.
          assert (List.map (relabel (Some x)) (lo k x) <> []) as Hne by (intros E; apply map_eq_nil in E; contradiction). specialize (HD Hne). rewrite pandas_relabels, op_compute_G in HD; [|exact Hparse|apply (avoids parse psort m s unit t Hsup Hparts Hex)].
          rewrite (V_in k g x _ Hu Hlo HD). rewrite lookup_restrict by (rewrite app_length; cbn; lia). now rewrite <- app_assoc. }
      set (D' := match s with [] => D | _ => filter (fun q => if in_dec bucket_dec (List.map Some (firstn n (fst q)), unit_at s q) su then true else false) D end).
      assert (forall q, In q D' -> In q D) as HD'. { unfold D'. intros q Hq. destruct s; [exact Hq|]. now apply filter_In in Hq. }
      assert (forall k x g, List.length k = n -> unit_at s (k ++ x :: g, NaN) = Some x) as HUA.
      { intros k x g Hk. unfold unit_at. cbn [fst]. rewrite nth_error_app2 by lia. rewrite Hk, Nat.sub_diag. reflexivity. }
      assert (forall k g x, List.length k = n -> In (Some x) c -> lookup (k ++ x :: g) D' = V k g (Some x)) as HV'.
      { intros k g x Hk Hx. destruct (unit_in_dec k x) as [Hu|Hu].
        - rewrite <- HV by assumption. unfold D'. destruct s as [|c0 s'] eqn:Es; [reflexivity|]. rewrite <- Es in *. rewrite lookup_filter; [|reflexivity]. cbn [fst]. rewrite HUA, firstn_app_len by assumption.
          destruct (in_dec bucket_dec _ su) as [|Hn]; [reflexivity|]. exfalso. apply Hn. now apply su_in.
        - assert (s <> []) as Hs. { intros Es. apply Hu. apply Hin, units_some in Hx as (y & Ey & r & Hr & Er). injection Ey as <-. exists r. split; [exact Hr|]. split; [|exact Er]. rewrite Es in *. destruct k; [reflexivity|discriminate]. }
          rewrite V_out; [|tauto|exact Hk]. unfold D'. destruct s as [|c0 s'] eqn:Es; [contradiction|]. rewrite <- Es in *. rewrite lookup_filter; [|reflexivity]. cbn [fst]. rewrite HUA, firstn_app_len by assumption.
          destruct (in_dec bucket_dec _ su) as [Hn|]; [|reflexivity]. apply su_in in Hn. contradiction. }
      eexists. split; [reflexivity|]. intros k g Hk.
      assert (forall x (fr : rframe), (forall q, In q fr -> In q D) ->
        slookup (List.map Some (k ++ g)) (List.map (fun q => labelled (drop_at n (fst q), snd q)) (filter (fun q => if label_dec (unit_at s q) (Some x) then true else false) fr)) = lookup (k ++ x :: g) fr) as HC.
      { intros x fr Hfr. induction fr as [|[q v] fr IH]; [reflexivity|]. destruct (HQ (q, v) (Hfr _ (or_introl eq_refl))) as (k' & x' & g' & Eq & Hl' & _ & _). cbn [fst] in Eq. subst q.
        assert (forall q, In q fr -> In q D) as Hfr' by (intros q Hq; apply Hfr; now right). specialize (IH Hfr'). cbn [filter]. replace (unit_at s (k' ++ x' :: g', v)) with (Some x') by (symmetry; exact (HUA k' x' g' Hl')).
        assert (drop_at n (k' ++ x' :: g') = k' ++ g') as Edr. { unfold drop_at. rewrite firstn_app_len by assumption. f_equal. change (k' ++ x' :: g') with (k' ++ [x'] ++ g'). rewrite app_assoc. apply skipn_app_len. rewrite app_length. cbn. lia. }
        cbn [lookup]. destruct (label_dec (Some x') (Some x)) as [E|E].
        - injection E as ->. cbn [List.map slookup labelled fst snd]. rewrite Edr. destruct (skey_dec (List.map Some (k' ++ g')) (List.map Some (k ++ g))) as [E'|E'].
          + apply some_inj in E'. apply app_len_eq in E' as [-> ->]; [|congruence]. assert (key_eqb (k ++ x :: g) (k ++ x :: g) = true) as -> by (now apply key_eqb_eq). reflexivity.
          + destruct (key_eqb (k' ++ x :: g') (k ++ x :: g)) eqn:Ek; [|exact IH]. apply key_eqb_eq in Ek. apply app_len_eq in Ek as [-> E2]; [|congruence]. injection E2 as ->. congruence.
        - destruct (key_eqb (k' ++ x' :: g') (k ++ x :: g)) eqn:Ek; [|exact IH]. apply key_eqb_eq in Ek. apply app_len_eq in Ek as [-> E2]; [|congruence]. injection E2 as -> _. congruence. }
      set (seen := first_seen (List.map (unit_at s) D')).
      assert (forall x, In x seen -> exists y, x = Some y /\ In (Some y) c) as Hseen.
      { intros x Hx. unfold seen in Hx. apply first_seen_In, in_map_iff in Hx as (q & <- & Hq). apply HD' in Hq. destruct (HQ q Hq) as (k' & x' & g' & Eq & Hl' & Hx' & _). exists x'. split; [|exact Hx']. rewrite <- (HUA k' x' g' Hl'). unfold unit_at. cbn [fst]. now rewrite Eq. }
      rewrite map_map.
      assert (List.map (fun x => slookup (List.map Some (k ++ g)) (List.map (fun q => labelled (drop_at n (fst q), snd q)) (filter (fun q => if label_dec (unit_at s q) x then true else false) D'))) seen = List.map (V k g) seen) as EM.
      { apply map_ext_in. intros x Hx. destruct (Hseen x Hx) as (y & -> & Hy). rewrite HC by exact HD'. now apply HV'. }
      fold D'. fold seen. rewrite EM. symmetry. apply present_units.
      + exact Hnd.
      + apply first_seen_NoDup.
      + intros x Hx. destruct (Hseen x Hx) as (y & -> & Hy). exact Hy.
      + intros x Hx Hn. destruct (units_some x (Hin x Hx)) as (y & -> & _). rewrite <- HV' by assumption. apply lookup_None. intros Hi. apply Hn. unfold seen. apply first_seen_In. apply in_map_iff in Hi as (q & Eq & Hq). apply in_map_iff. exists q. split; [|exact Hq].
        rewrite <- (HUA k y g Hk). unfold unit_at. cbn [fst]. now rewrite Eq.
  Qed.
End Main.
