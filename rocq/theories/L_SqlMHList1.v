(** Several value columns of the same rows; columns of one table. *)
From Coq Require Import Reals List Bool String Arith NArith Permutation Lia Lra.
From Verif Require Import M_Num M_Frame L_Frame M_Ops M_SqlText L_SqlText M_SqlGlobal S_SqlGlobal L_SqlGlobal M_SqlLeaf S_SqlLeaf L_SqlLeaf L_SqlLeaf2 M_SqlOps S_SqlOps L_SqlOps L_SqlBin M_SqlList S_SqlList L_SqlList.
Import ListNotations.
Open Scope string_scope.
Open Scope list_scope.

Definition encs (kv : list string * num) : skey * num := (List.map Some (fst kv), snd kv).
Definition encl (kv : list string * list num) : skey * list num := (List.map Some (fst kv), snd kv).
Definition unsome (k : skey) : list string := List.map (fun o => match o with Some l => l | None => "" end) k.
Lemma unsome_some k : unsome (List.map Some k) = k.
Proof. unfold unsome. rewrite map_map. apply map_id. Qed.

Section Columns.
  Context {X : Type}.
  Variables (key : X -> skey) (L : list X).
  Hypothesis Hd : NoDup (List.map key L).
  Definition column_of (f : X -> num) (F : rframe) : Prop := Permutation (List.map (fun x => (key x, f x)) L) (List.map encs F).
  Lemma column_keys f F : column_of f F -> Permutation (List.map key L) (List.map (List.map Some) (List.map fst F)).
  Proof. intros H. apply (Permutation_map fst) in H. rewrite !map_map in H. cbn [fst] in H. rewrite map_map. exact H. Qed.
  Lemma column_nodup f F : column_of f F -> NoDup (List.map fst F).
  Proof. intros H. apply column_keys in H. apply (Permutation_NoDup H) in Hd. now apply NoDup_map_inv in Hd. Qed.
  Lemma column_at f F x : column_of f F -> In x L -> key x = List.map Some (unsome (key x)) /\ In (unsome (key x)) (List.map fst F) /\ lookup (unsome (key x)) F = f x.
  Proof.
    intros H Hx. pose proof (column_nodup f F H) as HN. apply (in_map (fun x => (key x, f x))) in Hx. apply (Permutation_in _ H) in Hx. apply in_map_iff in Hx as ([k v] & E & Hi). unfold encs in E. cbn [fst snd] in E.
    assert (key x = List.map Some k) as Ek by exact (eq_sym (f_equal fst E)). assert (v = f x) as Ev by exact (f_equal snd E). rewrite Ek, unsome_some. split; [reflexivity|]. split; [exact (in_map fst _ _ Hi)|]. rewrite <- Ev. now apply lookup_In.
  Qed.
  Lemma many_columns fs Fs : Forall2 column_of fs Fs -> fs <> [] ->
    Permutation (List.map (fun x => (key x, List.map (fun f => f x) fs)) L) (List.map encl (concat_frames Fs)).
  Proof.
    intros HF Hne.
    assert (forall x, In x L -> (key x, List.map (fun f : X -> num => f x) fs) = encl (unsome (key x), List.map (lookup (unsome (key x))) Fs)) as E.
    { intros x Hx. unfold encl. cbn [fst snd]. destruct HF as [|f F fs' Fs' H HF]; [congruence|]. f_equal; [apply (column_at f F x H Hx)|]. apply (Forall2_cons f F) in HF; [|exact H]. clear H Hne. induction HF as [|f' F' fs'' Fs'' H' HF' IH]; [reflexivity|]. cbn [List.map]. f_equal; [|exact IH]. symmetry. now apply (column_at f' F' x H' Hx). }
    rewrite (map_ext_in _ _ _ E). rewrite <- (map_map (fun x => (unsome (key x), List.map (lookup (unsome (key x))) Fs)) encl). apply Permutation_map. unfold concat_frames.
    rewrite <- (map_map (fun x => unsome (key x)) (fun k => (k, List.map (lookup k) Fs))). apply Permutation_map.
    assert (forall f F, column_of f F -> Permutation (List.map (fun x => unsome (key x)) L) (List.map fst F)) as P.
    { intros f F H. apply column_keys in H. apply (Permutation_map unsome) in H. rewrite !map_map in H. rewrite H. clear. erewrite (map_ext _ fst); [apply Permutation_refl|]. intros a. apply unsome_some. }
    apply NoDup_Permutation; [|apply NoDup_nodup|].
    - destruct HF as [|f F fs' Fs' H HF]; [congruence|]. apply (Permutation_NoDup (Permutation_sym (P f F H))). exact (column_nodup f F H).
    - intros k. rewrite nodup_In, in_flat_map. split.
      + intros Hk. destruct HF as [|f F fs' Fs' H HF]; [congruence|]. exists F. split; [now left|]. exact (Permutation_in _ (P f F H) Hk).
      + intros (F & HF' & Hk). assert (exists f, column_of f F) as [f H]. { clear - HF HF'. induction HF as [|f0 F0 fs0 Fs0 H0 HF0 IH]; [destruct HF'|]. destruct HF' as [<-|H']; [now exists f0|auto]. }
        exact (Permutation_in _ (Permutation_sym (P f F H)) Hk).
  Qed.
End Columns.

(** ** add_column *)
Lemma str_append_inj a x y : String.append a x = String.append a y -> x = y.
Proof. induction a as [|c a IH]; cbn; [auto|]. intros E. injection E as E. auto. Qed.
Lemma suffix_inj a n m : with_suffix a n = with_suffix a m -> n = m.
Proof.
  assert (forall b, a <> String.append a (String.append "_" b)) as N. { intros b E. assert (String.append a "" = a) as E0 by (clear; induction a; cbn; congruence). rewrite <- E0 in E at 1. apply str_append_inj in E. discriminate. }
  destruct n as [|n], m as [|m]; cbn [with_suffix]; intros E; [reflexivity|now apply N in E|symmetry in E; now apply N in E|].
  apply str_append_inj, str_append_inj in E. apply (f_equal to_chars) in E. rewrite !to_of_chars in E. apply str_of_N_inj in E. lia.
Qed.
Lemma free_alias_spec a used : forall fuel n, exists m, free_alias fuel n a used = with_suffix a m /\ (n <= m <= n + fuel)%nat /\ (forall i, (n <= i < m)%nat -> In (with_suffix a i) used) /\ ((m < n + fuel)%nat -> ~ In (with_suffix a m) used).
Proof.
  induction fuel as [|f IH]; intros n; cbn [free_alias].
  - exists n. repeat split; try lia.
  - destruct (mem (with_suffix a n) used) eqn:E.
    + destruct (IH (S n)) as (m & -> & Hm & Hu & Hf). exists m. split; [reflexivity|]. split; [lia|]. split; [|intros; apply Hf; lia].
      intros i Hi. destruct (Nat.eq_dec i n) as [->|]; [now apply mem_in|apply Hu; lia].
    + exists n. split; [reflexivity|]. split; [lia|]. split; [intros; lia|]. intros _. now apply mem_false.
Qed.
Lemma free_alias_fresh a used : ~ In (free_alias (List.length used) 0 a used) used.
Proof.
  destruct (free_alias_spec a used (List.length used) 0) as (m & -> & Hm & Hu & Hf). destruct (Nat.eq_dec m (List.length used)) as [->|]; [|apply Hf; lia].
  intros Hi. assert (List.length (List.map (with_suffix a) (seq 0 (S (List.length used)))) <= List.length used)%nat as HL.
  { apply NoDup_incl_length.
    - apply FinFun.Injective_map_NoDup; [intros i j; apply suffix_inj|apply seq_NoDup].
    - intros x Hx. apply in_map_iff in Hx as (i & <- & Hi'). apply in_seq in Hi'. destruct (Nat.eq_dec i (List.length used)) as [->|]; [exact Hi|apply Hu; lia]. }
  rewrite map_length, seq_length in HL. lia.
Qed.
Lemma add_column_spec {A} (cols : list (string * A)) c : NoDup (List.map fst cols) ->
  NoDup (List.map fst (add_column cols c)) /\ incl cols (add_column cols c) /\ exists a, In (a, snd c) (add_column cols c).
Proof.
  intros HN. unfold add_column. destruct (existsb _ cols) eqn:E.
  - split; [exact HN|]. split; [apply incl_refl|]. apply existsb_exists in E as ([a e] & Hi & Hs). apply same_eq in Hs. cbn [snd] in Hs. subst e. eauto.
  - split; [|split; [apply incl_appl, incl_refl|]].
    + rewrite map_app. cbn [List.map fst]. pose proof (free_alias_fresh (fst c) (List.map fst cols)) as Hf. rewrite map_length in Hf. revert Hf. generalize (free_alias (List.length cols) 0 (fst c) (List.map fst cols)). intros a Ha.
      apply (Permutation_NoDup (Permutation_cons_append (List.map fst cols) a)). now constructor.
    + eexists. apply in_or_app. right. now left.
Qed.
Lemma add_columns_spec {A} l : forall (cols : list (string * A)), NoDup (List.map fst cols) ->
  NoDup (List.map fst (fold_left add_column l cols)) /\ incl cols (fold_left add_column l cols) /\ forall c, In c l -> exists a, In (a, snd c) (fold_left add_column l cols).
Proof.
  induction l as [|c l IH]; intros cols HN; cbn [fold_left]; [repeat split; auto using incl_refl; intros c []|].
  destruct (add_column_spec cols c HN) as (H1 & H2 & a & Ha). destruct (IH _ H1) as (H3 & H4 & H5). split; [exact H3|]. split; [eapply incl_tran; eauto|].
  intros c' [<-|Hc]; [exists a; now apply H4|auto].
Qed.
(** Columns with different expressions and names are added as they are. *)
Lemma add_columns_all {A} l : forall (cols : list (string * A)), NoDup (List.map fst (cols ++ l)) -> ForallOrdPairs (fun c c' => snd c <> snd c') (cols ++ l) -> fold_left add_column l cols = cols ++ l.
Proof.
  induction l as [|[v e] l IH]; intros cols HN HP; cbn [fold_left]; [now rewrite app_nil_r|].
  rewrite add_column_new.
  - rewrite IH; rewrite <- app_assoc; [reflexivity|exact HN|exact HP].
  - intros d Hd. clear - HP Hd. induction cols as [|c cols IH]; [destruct Hd|]. cbn [app] in HP. inversion HP as [|? ? H1 H2]; subst. destruct Hd as [->|Hd]; [|auto]. rewrite Forall_forall in H1. apply (H1 (v, e)). apply in_or_app. right. now left.
  - rewrite map_app in HN. cbn [List.map fst] in HN. apply NoDup_remove_2 in HN. intros Hi. apply HN, in_or_app. auto.
Qed.
