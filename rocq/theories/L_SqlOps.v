(** Queries of operations: what their rows are, in terms of the rows of the child's query. *)
From Coq Require Import Reals List Bool String Arith Permutation Sorted Lia Lra.
From Verif Require Import M_Num M_Frame L_Frame M_Ops S_Ops L_OpsA L_OpsB L_OpsC M_SqlGlobal L_SqlGlobal M_SqlLeaf S_SqlLeaf L_SqlLeaf L_SqlLeaf2 M_SqlOps S_SqlOps.
Import ListNotations.
Open Scope string_scope.
Open Scope list_scope.

(** ** Names *)
Lemma mem_false x l : mem x l = false <-> ~ In x l.
Proof. rewrite <- mem_in. destruct (mem x l); split; intros; try congruence; exfalso; auto. Qed.
Lemma add_cols_app b : forall a, NoDup (a ++ b) -> add_cols a b = a ++ b.
Proof.
  unfold add_cols. induction b as [|x b IH]; intros a H; cbn; [now rewrite app_nil_r|].
  assert (mem x a = false) as ->. { apply mem_false. apply NoDup_remove_2 in H. intros Hx. apply H, in_or_app. auto. }
  rewrite IH; rewrite <- app_assoc; [reflexivity|exact H].
Qed.
Lemma assoc_pass idx c rest : assoc c (pass_all idx ++ rest) = if mem c idx then Some (Pass c) else assoc c rest.
Proof.
  induction idx as [|a idx IH]; [reflexivity|]. cbn. rewrite (String.eqb_sym c a). destruct (String.eqb a c) eqn:E; cbn.
  - apply String.eqb_eq in E. now subst.
  - exact IH.
Qed.
Lemma assoc_here {A} c (x : A) l : assoc c ((c, x) :: l) = Some x.
Proof. cbn. now rewrite String.eqb_refl. Qed.
Lemma filter_not_in idx v : ~ In v idx -> filter (fun c => negb (mem c idx)) [v] = [v].
Proof. intros H. cbn. apply mem_false in H. now rewrite H. Qed.
Lemma filter_out idx idx' : incl idx idx' -> filter (fun c => negb (mem c idx')) idx = [].
Proof. intros H. apply filter_none. intros x Hx. apply H, mem_in in Hx. now rewrite Hx. Qed.

Definition shape (q : sqlq) (idx : list string) (v : string) : Prop :=
  NoDup idx /\ ~ In v idx /\
  ((groupby_of q = idx /\ columns_of q = [v]) \/ (groupby_of q = [] /\ columns_of q = idx ++ [v])).
Lemma shape_vals q idx v : shape q idx v -> filter (fun c => negb (mem c idx)) (columns_of q) = [v].
Proof.
  intros (_ & Hv & [[_ ->]|[_ ->]]); [now apply filter_not_in|].
  rewrite filter_app, filter_not_in by assumption. rewrite filter_out by (intros x; auto). reflexivity.
Qed.
Lemma shape_all q idx v : shape q idx v -> all_columns q = idx ++ [v].
Proof.
  intros (Hd & Hv & [[Eg Ec]|[Eg Ec]]); unfold all_columns; rewrite Eg, Ec.
  - now rewrite filter_not_in.
  - rewrite filter_all; [reflexivity|]. reflexivity.
Qed.
Lemma shape_add q idx v : shape q idx v -> add_cols (groupby_of q) (columns_of q) = idx ++ [v].
Proof.
  intros (Hd & Hv & [[Eg Ec]|[Eg Ec]]); rewrite Eg, Ec; rewrite add_cols_app; auto; cbn; rewrite <- ?app_assoc; 
  apply NoDup_Add with (a := v) (l := idx); try (split; assumption); rewrite <- (app_nil_r idx) at 1; apply Add_app.
Qed.

(** ** Rows *)
Definition obs (idx : list string) (v : string) (rows : list row) : list (skey * option R) :=
  List.map (fun r => (List.map (fun c => label (r c)) idx, number (r v))) rows.
Definition unf (x : num) : option R := match x with Fin r => Some r | _ => None end.
Definition enc (kv : list string * num) : skey * option R := (List.map Some (fst kv), unf (snd kv)).
Lemma fetch_unf x : no_inf x -> fetch (unf x) = x.
Proof. destruct x; cbn; auto; intros [H1 H2]; congruence. Qed.
Lemma unf_fetch x : unf (fetch x) = x.
Proof. destruct x; reflexivity. Qed.
Lemma no_inf_fetch x : no_inf (fetch x).
Proof. destruct x; split; discriminate. Qed.
Lemma shown_obs idx v rows : shown idx v rows = List.map (fun kv => (fst kv, fetch (snd kv))) (obs idx v rows).
Proof. unfold shown, obs. now rewrite map_map. Qed.
Lemma same_rows_enc idx v rows (F : rframe) :
  same_rows (shown idx v rows) F <-> Permutation (obs idx v rows) (List.map enc F) /\ Forall (fun r => no_inf (snd r)) F.
Proof.
  unfold same_rows. rewrite shown_obs. split.
  - intros H. assert (Forall (fun r => no_inf (snd r)) F) as HF.
    { apply Forall_forall. intros [k x] Hx. cbn. apply Permutation_sym in H.
      apply (in_map (fun kv => (List.map Some (fst kv), snd kv))) in Hx. apply (Permutation_in _ H) in Hx.
      apply in_map_iff in Hx as [q [E _]]. cbn in E. injection E as _ <-. apply no_inf_fetch. }
    split; [|exact HF].
    apply (Permutation_map (fun kv => (fst kv, unf (snd kv)))) in H. rewrite !map_map in H. cbn in H.
    erewrite map_ext in H; [|intros q; rewrite unf_fetch; reflexivity].
    etransitivity; [|exact H]. rewrite <- (map_id (obs idx v rows)) at 1. erewrite map_ext; [apply Permutation_refl|]. now intros [].
  - intros [H HF]. apply (Permutation_map (fun kv => (fst kv, fetch (snd kv)))) in H.
    etransitivity; [exact H|]. rewrite map_map. cbn. erewrite map_ext_in; [apply Permutation_refl|].
    intros [k x] Hx. rewrite Forall_forall in HF. cbn. f_equal. apply fetch_unf, (HF _ Hx).
Qed.

(** each row with the rows up to it *)
Lemma prefixes_snd {A B} (f : A -> B) l : forall seen, List.map (fun p => f (snd p)) (prefixes seen l) = List.map f l.
Proof. induction l as [|x l IH]; intros seen; cbn; [reflexivity|]. now rewrite IH. Qed.
Lemma prefixes_map {A B} (f : A -> B) l : forall seen,
  prefixes (List.map f seen) (List.map f l) = List.map (fun p => (List.map f (fst p), f (snd p))) (prefixes seen l).
Proof. induction l as [|x l IH]; intros seen; cbn; [reflexivity|]. now rewrite <- IH, map_app. Qed.
Lemma prefixes_in {A} (l : list A) : forall seen p, In p (prefixes seen l) -> exists m, fst p = seen ++ m ++ [snd p] /\ incl (m ++ [snd p]) l.
Proof.
  induction l as [|x l IH]; intros seen p []; cbn in *.
  - subst. exists []. cbn. split; [reflexivity|]. intros y [->|[]]. now left.
  - apply IH in H as (m & E & Hm). exists (x :: m). split; [cbn; now rewrite <- app_assoc in E|].
    intros y [->|Hy]; [now left|right; auto].
Qed.

(** A SELECT that passes the index columns and computes one column. *)
Definition sel1 (idx : list string) (v : string) (x : vx) (from : src) (w : option wx) : sqlq :=
  SqlSel (pass_all idx ++ [(v, Expr x)]) from w [].
Lemma existsb_pass idx x v : existsb (fun c => aggregate_col (snd c)) (pass_all idx ++ [(v, Expr x)]) = aggregate x.
Proof. induction idx; cbn; [now rewrite orb_false_r|assumption]. Qed.
Lemma order_of_sel1 idx v x : order_of (pass_all idx ++ [(v, Expr x)]) = match orders x with [] => None | o :: _ => Some o end.
Proof.
  unfold order_of. replace (flat_map _ _) with (orders x); [reflexivity|].
  induction idx; cbn; [now rewrite app_nil_r|assumption].
Qed.
Section Sel.
  Variables (parse : string -> cond) (srt : list okey -> list env -> list env).

  Lemma run_sql_sel cols from w g t : run_sql parse srt (SqlSel cols from w g) t =
    let envs := filter (where_pass w) (run_src parse srt from t) in
    match g with
    | [] => if existsb (fun c => aggregate_col (snd c)) cols then select_group cols [] envs else select srt cols envs
    | _ => select_group cols g envs
    end.
  Proof. reflexivity. Qed.
  Lemma run_src_from q t : run_src parse srt (From q) t = List.map plain_env (run_sql parse srt q t).
  Proof. reflexivity. Qed.
  Lemma run_src_join t1 q1 t2 q2 us t : run_src parse srt (Join t1 q1 t2 q2 us) t =
    flat_map (fun r1 => List.map (join_env t1 r1 t2) (filter (match_using us r1) (run_sql parse srt q2 t))) (run_sql parse srt q1 t).
  Proof. reflexivity. Qed.
  Lemma run_sel1 idx v x from w t : ~ In v idx -> aggregate x = false ->
    let envs := filter (where_pass w) (run_src parse srt from t) in
    let rows := match orders x with [] => envs | o :: _ => srt o envs end in
    obs idx v (run_sql parse srt (sel1 idx v x from w) t) =
    List.map (fun p => (key_of idx (snd p), value envs (fst p) (snd p) x)) (prefixes [] rows).
  Proof.
    intros Hv Ha envs rows. unfold sel1. rewrite run_sql_sel. cbn zeta iota. rewrite existsb_pass, Ha. unfold select. rewrite order_of_sel1.
    fold envs. replace (match match orders x with [] => None | o :: _ => Some o end with Some o => srt o envs | None => envs end) with rows by (unfold rows; now destruct (orders x)).
    unfold obs. rewrite map_map. apply map_ext. intros p. f_equal.
    - unfold key_of. apply map_ext_in. intros c Hc. rewrite assoc_pass. apply mem_in in Hc. now rewrite Hc.
    - rewrite assoc_pass. apply mem_false in Hv. rewrite Hv, assoc_here. cbn. now destruct (value envs (fst p) (snd p) x).
  Qed.
  Lemma shape_sel1 idx v x from w : NoDup idx -> ~ In v idx -> shape (sel1 idx v x from w) idx v.
  Proof.
    intros Hd Hv. split; [exact Hd|]. split; [exact Hv|]. right. split; [reflexivity|]. cbn.
    rewrite map_app. unfold pass_all. rewrite map_map. cbn. now rewrite map_id.
  Qed.
End Sel.

(** ** Values *)
Lemma nonnull_unf l : nonnull (List.map unf l) = finite_values l.
Proof. induction l as [|[| | |] l IH]; cbn; try rewrite IH; reflexivity. Qed.
Lemma nonnull_perm {A} (l l' : list (option A)) : Permutation l l' -> Permutation (nonnull l) (nonnull l').
Proof.
  induction 1; cbn; auto.
  - destruct x; auto.
  - destruct x, y; auto. constructor.
  - etransitivity; eauto.
Qed.
Lemma ssum_perm l l' : Permutation l l' -> ssum l = ssum l'.
Proof.
  intros H. apply nonnull_perm in H. unfold ssum. destruct (nonnull l) as [|a m] eqn:E.
  - apply Permutation_nil in H. now rewrite H.
  - destruct (nonnull l') as [|a' m'] eqn:E'; [apply Permutation_sym, Permutation_nil in H; discriminate|].
    f_equal. now apply Rsum_perm.
Qed.
Lemma filter_perm {A} (p : A -> bool) l l' : Permutation l l' -> Permutation (filter p l) (filter p l').
Proof.
  induction 1; cbn; auto.
  - destruct (p x); auto.
  - destruct (p x), (p y); auto. constructor.
  - etransitivity; eauto.
Qed.
(** NULL if there is no number, the total otherwise *)
Lemma ssum_total n g (F : rframe) : ssum (List.map unf (vals n g F)) = match nums n g F with [] => None | _ => Some (total n g F) end.
Proof. unfold ssum. rewrite nonnull_unf. fold (nums n g F). unfold total. destruct (nums n g F); reflexivity. Qed.
Lemma nums_nil n g F : nums n g F = [] -> Forall (fun r => no_inf (snd r)) F -> forall r, In r F -> firstn n (fst r) = g -> snd r = NaN.
Proof.
  intros H HF r Hr Eg. unfold nums, vals in H. assert (In (snd r) (List.map snd (S_Ops.group n g F))) as Hi by (apply in_map, group_In; auto).
  rewrite Forall_forall in HF. specialize (HF r Hr). destruct (snd r) as [a| | |] eqn:E; try reflexivity; destruct HF; try congruence.
  exfalso. revert H Hi. generalize (List.map snd (S_Ops.group n g F)). induction l as [|x l IH]; cbn; [tauto|].
  destruct x; cbn; intros E2 [E3|Hi]; try discriminate; auto.
Qed.
Lemma in_nums n g (F : rframe) k a : In (k, Fin a) F -> firstn n k = g -> In a (nums n g F).
Proof.
  intros H Eg. unfold nums, vals. assert (In (Fin a) (List.map snd (S_Ops.group n g F))) as Hi.
  { apply (in_map snd (S_Ops.group n g F) (k, Fin a)), group_In. auto. }
  revert Hi. generalize (List.map snd (S_Ops.group n g F)). induction l as [|x l IH]; cbn; [tauto|]. intros [->|H1]; [now left|].
  destruct x; cbn; auto.
Qed.
Lemma vals_no_inf n g F : Forall (fun r => no_inf (snd r)) F -> Forall no_inf (vals n g F).
Proof.
  intros H. unfold vals. apply Forall_forall. intros x Hx. apply in_map_iff in Hx as [r [<- Hr]]. apply group_In in Hr as [Hr _].
  rewrite Forall_forall in H. auto.
Qed.
(** the value of a row of the distribution *)
Lemma dist_value n k x (F : rframe) : Forall (fun r => no_inf (snd r)) F -> In (k, x) F -> dist_fits n F ->
  unf (xdiv x (xsum (vals n (firstn n k) F))) = vdiv (unf x) (ssum (List.map unf (vals n (firstn n k) F))) /\
  no_inf (xdiv x (xsum (vals n (firstn n k) F))).
Proof.
  intros HF Hin Hfit. rewrite xsum_finite by now apply vals_no_inf. fold (nums n (firstn n k) F). fold (total n (firstn n k) F). rewrite ssum_total.
  rewrite Forall_forall in HF. pose proof (HF _ Hin) as Hx. cbn in Hx.
  destruct x as [a| | |]; try (destruct Hx; congruence).
  - pose proof (in_nums n _ F k a Hin eq_refl) as Ha. destruct (nums n (firstn n k) F) as [|b l] eqn:E; [destruct Ha|].
    cbn. unfold Reqb, inf_times. destruct (Req_EM_T (total n (firstn n k) F) 0) as [E0|E0]; [|split; [reflexivity|split; discriminate]].
    destruct (Hfit _ _ Hin E0) as [Ea|]; [|discriminate]. injection Ea as ->. destruct (Req_EM_T 0 0); [|lra]. split; [reflexivity|split; discriminate].
  - cbn. split; [|split; discriminate]. destruct (nums n (firstn n k) F); [reflexivity|]. cbn. now destruct (Reqb _ 0).
Qed.

(** ** Index keys *)
Definition some_keys := List.map (@Some string).
Lemma some_inj a b : List.map (@Some string) a = List.map Some b -> a = b.
Proof. revert b; induction a as [|x a IH]; intros [|y b] H; try discriminate; auto. injection H as -> H. f_equal. auto. Qed.
Lemma key_of_plain idx r : key_of idx (plain_env r) = List.map (fun c => label (r c)) idx.
Proof. reflexivity. Qed.
Lemma key_of_firstn a b e : key_of a e = firstn (List.length a) (key_of (a ++ b) e).
Proof. unfold key_of. rewrite map_app, firstn_app, map_length, Nat.sub_diag, firstn_all2 by now rewrite map_length. cbn. now rewrite app_nil_r. Qed.
Lemma firstn_some n k : firstn n (List.map (@Some string) k) = List.map Some (firstn n k).
Proof. apply firstn_map. Qed.

Section Steps.
  Variables (parse : string -> cond) (srt : list okey -> list env -> list env) (t : stable).

  Definition inv (q : sqlq) (idx : list string) (v : string) (F : rframe) : Prop :=
    shape q idx v /\ well_scoped q = true /\ Permutation (obs idx v (run_sql parse srt q t)) (List.map enc F) /\
    Forall (fun r => no_inf (snd r)) F /\ NoDup (List.map fst F) /\ Forall (fun r => List.length (fst r) = List.length idx) F.

  (** the partition of a row: SQL compares label columns, pandas the first labels of the key *)
  Lemma partition_enc by_ over v rows (F : rframe) k :
    Permutation (obs (by_ ++ over) v rows) (List.map enc F) ->
    Permutation (List.map (fun e => num_at e v) (filter (fun e => if skey_dec (List.map Some (firstn (List.length by_) k)) (key_of by_ e) then true else false) (List.map plain_env rows)))
                (List.map unf (vals (List.length by_) (firstn (List.length by_) k) F)).
  Proof.
    intros H. rewrite filter_map_comm, map_map. unfold num_at. cbn [plain_env].
    unfold vals, S_Ops.group. set (n := List.length by_). set (p := fun (kv : skey * option R) => if skey_dec (List.map Some (firstn n k)) (firstn n (fst kv)) then true else false).
    apply (filter_perm p) in H. apply (Permutation_map snd) in H. unfold obs in H.
    rewrite filter_map_comm, map_map in H. cbn [snd] in H. rewrite filter_map_comm, map_map in H. unfold enc in H. cbn [snd] in H.
    erewrite (filter_ext (fun x => p _)) in H; [|intros r; unfold p; cbn [fst]; reflexivity].
    rewrite map_map. cbn.
    erewrite (filter_ext (fun x => if skey_dec _ (key_of by_ (plain_env x)) then true else false)).
    2:{ intros r. rewrite (key_of_firstn by_ over). fold n. rewrite key_of_plain. reflexivity. }
    etransitivity; [exact H|].
    erewrite filter_ext; [apply Permutation_refl|]. intros [k' x]. unfold p. cbn [fst]. rewrite firstn_some.
    destruct (skey_dec _ _) as [E|E], (list_eq_dec _ _ _) as [E'|E']; auto; exfalso.
    - apply some_inj in E. congruence.
    - apply E. now f_equal.
  Qed.

  Lemma scoped_sel1 idx v x from w : (forall c, In c idx -> in_source from (Plain c) = true) ->
    (forall r, In r (vrefs x) -> in_source from r = true) -> (forall r, In r (wrefs w) -> in_source from r = true) ->
    scoped_src from = true -> well_scoped (sel1 idx v x from w) = true.
  Proof.
    intros H1 H2 H3 H4. unfold sel1. cbn [well_scoped]. change (scoped_src from) with (scoped_src from) in H4. apply andb_true_intro. split; [|exact H4].
    rewrite forallb_forall. intros r Hr. rewrite !in_app_iff in Hr. destruct Hr as [Hr|[Hr|[]]]; [|auto].
    rewrite flat_map_app, in_app_iff in Hr. destruct Hr as [Hr|Hr].
    - apply in_flat_map in Hr as [p [Hp Hr]]. unfold pass_all in Hp. apply in_map_iff in Hp as [c [<- Hc]]. cbn in Hr. destruct Hr as [<-|[]]. auto.
    - cbn in Hr. rewrite app_nil_r in Hr. auto.
  Qed.
  Lemma in_from q idx v c : shape q idx v -> In c (idx ++ [v]) -> in_source (From q) (Plain c) = true.
  Proof. intros H Hc. cbn. rewrite (shape_all q idx v H). now apply mem_in. Qed.
  Lemma scoped_from q : scoped_src (From q) = well_scoped q. Proof. reflexivity. Qed.

  Lemma where_none l : filter (where_pass None) l = l.
  Proof. apply filter_all. reflexivity. Qed.

  Lemma dist_step prefix by_ over v c F :
    inv c (by_ ++ over) v F -> dist_fits (List.length by_) F -> ~ In (String.append prefix v) (by_ ++ over) ->
    inv (distribution_sql prefix by_ over c) (by_ ++ over) (String.append prefix v) (distribution (List.length by_) F).
  Proof.
    intros (Hsh & Hsc & Hp & HF & Hd & Hl) Hfit Hv. set (n := List.length by_) in *.
    assert (NoDup (by_ ++ over)) as Hnd by apply Hsh.
    assert (distribution_sql prefix by_ over c = sel1 (by_ ++ over) (String.append prefix v) (VDiv (VRef (Plain v)) (VSumOver v by_)) (From c) None) as ->.
    { unfold distribution_sql. rewrite add_cols_app by assumption. now rewrite (shape_vals c _ v Hsh). }
    assert (distribution n F = List.map (fun r => (fst r, xdiv (snd r) (xsum (vals n (firstn n (fst r)) F)))) F) as ED.
    { unfold distribution. apply map_ext_in. intros r Hr. cbn. now rewrite level_total. }
    split; [now apply shape_sel1|]. split; [|split; [|split; [|split]]].
    - apply scoped_sel1; try (intros r []); auto.
      + intros r Hr. apply (in_from c _ v _ Hsh), in_or_app. auto.
      + subst r. apply (in_from c _ v _ Hsh), in_or_app. right. now left.
      + cbn in H. destruct H as [<-|H]; [apply (in_from c _ v _ Hsh), in_or_app; right; now left|].
        apply in_map_iff in H as [b [<- Hb]]. apply (in_from c _ v _ Hsh), in_or_app. left. apply in_or_app. auto.
    - rewrite run_sel1 by (auto; reflexivity). cbn [orders]. rewrite run_src_from, where_none. set (envs := List.map plain_env (run_sql parse srt c t)).
      set (H := fun kv : skey * option R => (fst kv, vdiv (snd kv) (ssum (List.map (fun e => num_at e v) (filter (fun e => if skey_dec (firstn n (fst kv)) (key_of by_ e) then true else false) envs))))).
      transitivity (List.map H (obs (by_ ++ over) v (run_sql parse srt c t))).
      + unfold obs. rewrite map_map.
        set (f := fun e => (key_of (by_ ++ over) e, value envs [] e (VDiv (VRef (Plain v)) (VSumOver v by_)))).
        change (Permutation (List.map (fun p => f (snd p)) (prefixes [] envs)) (List.map (fun r => H (List.map (fun c0 => label (r c0)) (by_ ++ over), number (r v))) (run_sql parse srt c t))).
        rewrite (prefixes_snd f). unfold envs at 1. rewrite map_map. erewrite map_ext; [apply Permutation_refl|].
        intros r. unfold H, f. cbn [fst snd]. f_equal. cbn [value]. unfold same_key. do 3 f_equal. rewrite (key_of_firstn by_ over). reflexivity.
      + rewrite Hp. rewrite map_map, ED, map_map. erewrite map_ext_in; [apply Permutation_refl|].
        intros [k x] Hx. unfold H, enc. cbn [fst snd]. f_equal. rewrite firstn_some.
        pose proof (ssum_perm _ _ (partition_enc by_ over v _ F k Hp)) as E. fold n envs in E. rewrite E. symmetry. now apply dist_value.
    - rewrite ED. apply Forall_forall. intros r Hr. apply in_map_iff in Hr as [[k x] [<- Hx]]. cbn. now apply dist_value.
    - rewrite distribution_index. exact Hd.
    - rewrite ED. apply Forall_forall. intros r Hr. apply in_map_iff in Hr as [[k x] [<- Hx]]. cbn. rewrite Forall_forall in Hl. apply (Hl _ Hx).
  Qed.
End Steps.
