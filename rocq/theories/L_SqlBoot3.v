(** The samples of Bootstrap: each sample of the query is one pandas may draw, and each draw of pandas is one of the query. *)
From Coq Require Import Reals List Bool String Arith ZArith Permutation Lia Lra.
From Verif Require Import M_Num M_Frame L_Frame M_Ops M_Slices L_Slices M_Jackknife M_Bootstrap M_BootSql L_BootSql M_SqlGlobal M_SqlLeaf M_SqlOps M_SqlJackknife M_SqlBoot S_SqlLeaf S_SqlOps S_SqlJackknife S_SqlBoot L_SqlBoot2.
From Verif Require L_Bootstrap L_SqlOps L_SqlOps2 L_RowOrder L_Jackknife L_Jackknife3 L_SqlLeaf2.
Import ListNotations.
Open Scope list_scope.
Open Scope nat_scope.

Lemma pandas_filter (p : drow -> bool) t : filter p (pandas_table t) = pandas_table (filter (fun r => p (pandas_row r)) t).
Proof. apply L_Bootstrap.filter_map_comm. Qed.
Lemma group_keys_NoDup cols df : NoDup (group_keys cols df).
Proof. unfold group_keys. destruct cols; [constructor; [intros []|constructor]|]. apply L_Frame.ksorted_NoDup, sort_uniq_sorted. Qed.
Lemma nodup_map_in {A B} (f : A -> B) l : (forall x y, In x l -> In y l -> f x = f y -> x = y) -> NoDup l -> NoDup (List.map f l).
Proof.
  intros H ND. induction ND as [|x l Hx ND IH]; cbn [List.map]; constructor.
  - intros Hi. apply in_map_iff in Hi as (y & E & Hy). apply Hx. rewrite <- (H y x); auto; [now right|now left].
  - apply IH. intros a b Ha Hb. apply H; now right.
Qed.

Section Samples.
  Variables (s : list string) (i : nat) (t t' : stable).
  Hypothesis Hp : Permutation t' t.
  Hypothesis Hlab : forall r c, In r t -> In c s -> slab r c <> None.
  Notation df := (pandas_table t).
  Notation n := (List.length s).

  Lemma part_some r : In r t -> exists k, spart s r = Some k.
  Proof. intros Hr. apply L_Jackknife3.row_key_total. intros c Hc. now apply Hlab. Qed.
  Lemma part_key r k : In r t -> spart s r = Some k -> In k (group_keys s df).
  Proof.
    intros Hr Hk. apply L_SqlLeaf2.group_keys_In. destruct s as [|c s'].
    - left. injection Hk as <-. auto.
    - right. split; [discriminate|]. exists (pandas_row r). split; [now apply in_map|exact Hk].
  Qed.
  Lemma slice_in k : slice s k df = pandas_table (filter (in_slice (spart s) k) t).
  Proof. apply pandas_filter. Qed.

  (** *** rows *)
  Lemma row_sizes : draw_sizes s None df = List.map (fun k => List.length (filter (in_slice (spart s) k) t)) (group_keys s df).
  Proof. unfold draw_sizes. apply map_ext. intros k. rewrite slice_in. apply map_length. Qed.
  Lemma row_groups ds : boot_psample s None df ds = pandas_table (sample_groups (List.map (fun k => filter (in_slice (spart s) k) t) (group_keys s df)) ds).
  Proof.
    unfold boot_psample, sample_by_row. unfold pandas_table at 3. rewrite <- L_Bootstrap.sample_groups_map, map_map. f_equal. apply map_ext. intros k. apply slice_in.
  Qed.
  Lemma row_keys r : In r t -> exists k, spart s r = Some k /\ In k (group_keys s df).
  Proof. intros Hr. destruct (part_some r Hr) as [k Hk]. exists k. split; [exact Hk|]. now apply (part_key r). Qed.

  (** *** units *)
  Variable u : string.
  Hypothesis Hunit : forall r, In r t -> slab r u <> None.
  Notation units := (group_keys (s ++ [u]) df).
  Notation cands := (candidates (spart s) (fun r => slab r u) (fun _ => Some true) t').
  Definition dec (K : list string) : candidate := (Some (firstn n K), hd_error (skipn n K)).
  Lemma su_ne : s ++ [u] <> []. Proof. destruct s; discriminate. Qed.
  Lemma unit_key r k x : row_key (s ++ [u]) (pandas_row r) = Some (k ++ [x]) <-> spart s r = Some k /\ slab r u = Some x.
  Proof.
    rewrite L_Slices.row_key_app. unfold spart. cbn [row_key]. cbn [lab pandas_row]. destruct (row_key s (pandas_row r)) as [k'|]; [|split; [discriminate|intros [E _]; discriminate]].
    destruct (slab r u) as [x'|]; [|split; [discriminate|intros [_ E]; discriminate]]. split.
    - intros E. injection E as E. apply app_inj_tail in E as [-> ->]. auto.
    - intros [E1 E2]. injection E1 as ->. injection E2 as ->. reflexivity.
  Qed.
  Lemma unit_In K : In K units <-> exists r k x, In r t /\ K = k ++ [x] /\ spart s r = Some k /\ slab r u = Some x.
  Proof.
    rewrite L_SqlLeaf2.group_keys_In. split.
    - intros [[E _]|[_ (r & Hr & HK)]]; [destruct (su_ne E)|]. apply in_map_iff in Hr as (r' & <- & Hr). pose proof (L_Slices.row_key_length _ _ _ HK) as HL. rewrite app_length in HL. cbn in HL.
      destruct (exists_last (l := K)) as (k & x & ->); [destruct K; [cbn in HL; lia|discriminate]|]. apply unit_key in HK as [H1 H2]. exists r', k, x. auto.
    - intros (r & k & x & Hr & -> & H1 & H2). right. split; [apply su_ne|]. exists (pandas_row r). split; [now apply in_map|]. apply unit_key. auto.
  Qed.
  Lemma spart_len r k : spart s r = Some k -> List.length k = n.
  Proof. apply L_Slices.row_key_length. Qed.
  Lemma dec_app k x : List.length k = n -> dec (k ++ [x]) = (Some k, Some x).
  Proof. intros H. unfold dec. rewrite <- H, firstn_app, firstn_all, Nat.sub_diag. cbn [firstn]. rewrite app_nil_r, skipn_app, skipn_all, Nat.sub_diag. reflexivity. Qed.
  Lemma cand_units : Permutation cands (List.map dec units).
  Proof.
    apply NoDup_Permutation.
    - apply NoDup_nodup.
    - apply nodup_map_in; [|apply group_keys_NoDup]. intros K K' HK HK' E. apply unit_In in HK as (r & k & x & _ & -> & H1 & _). apply unit_In in HK' as (r' & k' & x' & _ & -> & H1' & _).
      rewrite !dec_app in E by (eapply spart_len; eauto). congruence.
    - intros c. unfold candidates. rewrite nodup_In, in_map_iff, in_map_iff. split.
      + intros (r & <- & Hr). apply filter_In in Hr as [Hr _]. apply (Permutation_in _ Hp) in Hr. destruct (part_some r Hr) as [k Hk]. destruct (slab r u) as [x|] eqn:Ex; [|destruct (Hunit r Hr Ex)].
        exists (k ++ [x]). rewrite dec_app by (eapply spart_len; eauto). rewrite Hk. split; [reflexivity|]. apply unit_In. exists r, k, x. auto.
      + intros (K & <- & HK). apply unit_In in HK as (r & k & x & Hr & -> & H1 & H2). exists r. rewrite dec_app by (eapply spart_len; eauto). rewrite H1, H2. split; [reflexivity|]. apply filter_In. split; [|reflexivity]. now apply (Permutation_in _ (Permutation_sym Hp)).
  Qed.
  Definition unit_keys : list (list string) := match s with [] => [[]] | _ => sort_uniq (List.map (firstn n) units) end.
  Lemma unit_keys_nodup : NoDup unit_keys.
  Proof. unfold unit_keys. destruct s; [constructor; [intros []|constructor]|]. apply L_Frame.ksorted_NoDup, sort_uniq_sorted. Qed.
  Lemma unit_keys_part c : In c (List.map dec units) -> exists k, fst c = Some k /\ In k unit_keys.
  Proof.
    intros H. apply in_map_iff in H as (K & <- & HK). exists (firstn n K). split; [reflexivity|]. unfold unit_keys. destruct s as [|c0 s'] eqn:Es; [now left|]. rewrite <- Es in *. apply sort_uniq_In, in_map. exact HK.
  Qed.
  Lemma dec_slice k : filter (in_slice (fun c : candidate => fst c) k) (List.map dec units) = List.map dec (filter (fun K => key_eqb (firstn n K) k) units).
  Proof. apply L_Bootstrap.filter_map_comm. Qed.
  Lemma unit_sizes : draw_sizes s (Some u) df = List.map (fun k => List.length (filter (in_slice (fun c : candidate => fst c) k) (List.map dec units))) unit_keys.
  Proof.
    unfold draw_sizes, unit_groups, unit_keys. cbn zeta. rewrite map_map. apply map_ext. intros k. rewrite dec_slice. symmetry. apply map_length.
  Qed.
  Lemma unit_sample ds B : Permutation B (sample_groups (List.map (fun k => filter (in_slice (fun c : candidate => fst c) k) (List.map dec units)) unit_keys) ds) ->
    Permutation (pandas_table (flat_map (fun c => filter (fun r => of_candidate (spart s) (fun r => slab r u) c r && true) t') B)) (boot_psample s (Some u) df ds).
  Proof.
    intros HB. unfold boot_psample, sample_by_unit, rows_of_units. set (L := sample_groups (unit_groups s u df) ds).
    assert (sample_groups (List.map (fun k => filter (in_slice (fun c : candidate => fst c) k) (List.map dec units)) unit_keys) ds = List.map dec L) as EL.
    { unfold L, unit_groups. cbn zeta. fold unit_keys. rewrite <- L_Bootstrap.sample_groups_map, map_map. f_equal. apply map_ext. intros k. apply dec_slice. }
    rewrite EL in HB. clear EL.
    assert (forall K, In K L -> In K units) as HL.
    { intros K HK. apply L_Bootstrap.sample_groups_In in HK as (g & Hg & HK). unfold unit_groups in Hg. cbn zeta in Hg. apply in_map_iff in Hg as (k & <- & _). now apply filter_In in HK. }
    etransitivity; [apply Permutation_map; apply (L_SqlOps2.flat_map_perm _ _ _ HB)|].
    rewrite L_Bootstrap.flat_map_map. clear HB. induction L as [|K L IH]; [constructor|]. cbn [flat_map]. rewrite map_app. apply Permutation_app; [|apply IH; intros K' HK; apply HL; now right].
    destruct (proj1 (unit_In K) (HL K (or_introl eq_refl))) as (r0 & k & x & _ & -> & H1 & H2). rewrite dec_app by (eapply spart_len; eauto). unfold slice. rewrite pandas_filter. apply Permutation_map.
    etransitivity; [apply L_SqlOps.filter_perm; exact Hp|]. erewrite filter_ext; [apply Permutation_refl|]. intros r. rewrite andb_true_r. cbn [of_candidate].
    unfold has_key. destruct (row_key (s ++ [u]) (pandas_row r)) as [K|] eqn:EK.
    - pose proof (L_Slices.row_key_length _ _ _ EK) as HLK. rewrite app_length in HLK. cbn in HLK. destruct (exists_last (l := K)) as (k' & x' & ->); [destruct K; [cbn in HLK; lia|discriminate]|].
      apply unit_key in EK as [-> ->]. apply eq_true_iff_eq. rewrite andb_true_iff, !key_eqb_eq, String.eqb_eq. split; [intros [-> ->]; reflexivity|]. intros E. apply app_inj_tail in E as [-> ->]. auto.
    - destruct (spart s r) as [k'|] eqn:E1; [|reflexivity]. destruct (slab r u) as [x'|] eqn:E2; [|reflexivity]. assert (row_key (s ++ [u]) (pandas_row r) = Some (k' ++ [x'])) by (apply unit_key; auto). congruence.
  Qed.
End Samples.

Section Both.
  Variables (s : list string) (unit : option string) (i : nat) (t t' : stable).
  Hypothesis Hp : Permutation t' t.
  Hypothesis Hlab : forall r c, In r t -> In c s -> slab r c <> None.
  Hypothesis Hunit : forall u r, unit = Some u -> In r t -> slab r u <> None.
  Notation df := (pandas_table t).
  Lemma sample_same rand rand' : (forall j, rand i j = rand' i j) -> boot_sample s unit rand i t' = boot_sample s unit rand' i t'.
  Proof.
    intros H. assert (forall A (part : A -> option (list string)) (l : list A), bootstrap_by_row part (fun _ => Some true) rand i l = bootstrap_by_row part (fun _ => Some true) rand' i l) as E.
    { intros A part l. unfold bootstrap_by_row, joined, random_rows. f_equal. f_equal. apply map_ext. intros jr. now rewrite H. }
    unfold boot_sample. destruct unit as [u|]; [|apply E]. unfold bootstrap_by_unit. now rewrite E.
  Qed.
  Theorem sample_is_possible rand : (forall j, (0 < rand i j <= 1)%R) ->
    exists ds, possible_draw (draw_sizes s unit df) ds /\ Permutation (pandas_table (boot_sample s unit rand i t')) (boot_psample s unit df ds).
  Proof.
    intros HR. destruct unit as [u|].
    - assert (forall r, In r t -> slab r u <> None) as Hu by (intros r; now apply Hunit).
      destruct (row_is_draw (fun c : candidate => fst c) i (List.map (dec s) (group_keys (s ++ [u]) df)) (candidates (spart s) (fun r => slab r u) (fun _ => Some true) t') (unit_keys s t u)
                  (cand_units s t t' Hp Hlab u Hu) (unit_keys_nodup s t Hlab u) (unit_keys_part s t Hlab u) rand HR) as (ds & H1 & H2).
      exists ds. rewrite unit_sizes. split; [exact H1|]. now apply (unit_sample s t t').
    - destruct (row_is_draw (spart s) i t t' (group_keys s df) Hp (group_keys_NoDup s df) (row_keys s t Hlab) rand HR) as (ds & H1 & H2).
      exists ds. rewrite row_sizes, row_groups. split; [exact H1|]. now apply Permutation_map.
  Qed.
  Theorem draw_is_possible ds : possible_draw (draw_sizes s unit df) ds ->
    exists v : nat -> R, (forall j, (0 < v j <= 1)%R) /\ forall rand, (forall j, rand i j = v j) -> Permutation (pandas_table (boot_sample s unit rand i t')) (boot_psample s unit df ds).
  Proof.
    intros H. destruct unit as [u|].
    - assert (forall r, In r t -> slab r u <> None) as Hu by (intros r; now apply Hunit). rewrite unit_sizes in H.
      destruct (draw_is_row (fun c : candidate => fst c) i (List.map (dec s) (group_keys (s ++ [u]) df)) (candidates (spart s) (fun r => slab r u) (fun _ => Some true) t') (unit_keys s t u)
                  (cand_units s t t' Hp Hlab u Hu) (unit_keys_nodup s t Hlab u) (unit_keys_part s t Hlab u) ds H) as (v & H1 & H2).
      exists v. split; [exact H1|]. intros rand Hr. apply H2 in Hr. now apply (unit_sample s t t').
    - rewrite row_sizes in H. destruct (draw_is_row (spart s) i t t' (group_keys s df) Hp (group_keys_NoDup s df) (row_keys s t Hlab) ds H) as (v & H1 & H2).
      exists v. split; [exact H1|]. intros rand Hr. rewrite row_groups. apply Permutation_map. exact (H2 rand Hr).
  Qed.
  Lemma sample_incl rand r : In r (boot_sample s unit rand i t') -> In r t.
  Proof.
    clear Hunit Hlab. unfold boot_sample. destruct unit as [u|].
    - unfold bootstrap_by_unit. intros H. apply in_flat_map in H as (c & _ & H). apply filter_In in H as [H _]. now apply (Permutation_in _ Hp).
    - apply (row_In (spart s) i t t' Hp).
  Qed.
End Both.
