(** C76, C77: metrics behave like values although they are mutable objects. *)
From Coq Require Import List String Bool Arith Lia.
Import ListNotations.
From Verif Require Import M_Objects S_Objects L_Objects1 L_Objects2 L_Objects3 L_Objects4.
Open Scope string_scope.
Open Scope list_scope.

(** * C76 *)

(** For every program that builds metrics and pipes them into operations, every variable that should
    hold a metric holds it, whatever the operations were used for before or after. *)
Theorem C76_pipeline : forall fmt p vs, values fmt [] p = Some vs ->
  exists h cs, run fmt ([], []) p = Some (h, cs) /\ List.length cs = List.length vs /\
    forall x t, nth_error vs x = Some (Metric t) -> exists c, nth_error cs x = Some c /\ denotes h c t.
Proof.
  intros fmt p vs V.
  destruct (run_ok fmt p [] [] [] vs (Forall2_nil _) V) as (h & rs & E & H & _). cbn [app] in *.
  exists h, rs. split; [exact E|]. split; [exact (F2_length _ _ _ H)|].
  intros x t N. destruct (holds_nth _ _ _ _ _ H N) as (c & Nc & D & _). eauto.
Qed.
Print Assumptions C76_pipeline.

(** A metric once built stays what it is when the program goes on. *)
Theorem C76_later_statements : forall fmt p q vs vs', values fmt [] p = Some vs -> values fmt vs q = Some vs' ->
  exists h cs h' cs', run fmt ([], []) p = Some (h, cs) /\ run fmt (h, cs) q = Some (h', cs') /\
    forall x t, nth_error vs x = Some (Metric t) -> exists c,
      nth_error cs x = Some c /\ nth_error cs' x = Some c /\ denotes h c t /\ denotes h' c t.
Proof.
  intros fmt p q vs vs' V V'.
  destruct (run_ok fmt p [] [] [] vs (Forall2_nil _) V) as (h & rs & E & H & _). cbn [app] in *.
  destruct (run_ok fmt q h rs vs vs' H V') as (h' & rs' & E' & H' & _).
  exists h, rs, h', (rs ++ rs'). split; [exact E|]. split; [exact E'|].
  intros x t N. destruct (holds_nth _ _ _ _ _ H N) as (c & Nc & D & _). exists c.
  assert (Nc' : nth_error (rs ++ rs') x = Some c)
    by (rewrite nth_error_app1; [exact Nc|apply nth_error_Some; congruence]).
  split; [exact Nc|]. split; [exact Nc'|]. split; [exact D|].
  assert (exists ws, vs' = vs ++ ws) as (ws & ->).
  { clear - V'. revert vs V'. induction q as [|c q IH]; intros vs V; cbn [values] in V.
    - injection V as <-. exists []. now rewrite app_nil_r.
    - destruct (value_of fmt vs c); [|discriminate]. destruct (IH _ V) as (ws & ->).
      exists ([v] ++ ws). now rewrite app_assoc. }
  assert (N' : nth_error (vs ++ ws) x = Some (Metric t))
    by (rewrite nth_error_app1; [exact N|apply nth_error_Some; congruence]).
  destruct (holds_nth _ _ _ _ _ H' N') as (c' & Nc2 & D' & _). rewrite Nc' in Nc2. injection Nc2 as <-.
  exact D'.
Qed.
Print Assumptions C76_later_statements.

(** A filter added to the result of an operation that had been used before (or was built with its
    child) is in that result only: every other variable, and everything the program builds later,
    including with the same operation, is as if the filter had not been added. *)
Theorem C76_filter_on_result : forall fmt p q x op w vs l t vs',
  values fmt [] p = Some vs -> value_of fmt vs (Pipe x op) = Some (Metric (Node l [t])) ->
  (exists m, nth_error vs op = Some (Metric m)) \/ (exists y, In (Pipe y op) p) ->
  let r := Metric (Node (add_where w l) [t]) in
  values fmt (vs ++ [r; r]) q = Some vs' ->
  exists h cs, run fmt ([], []) (p ++ [Pipe x op; AddWhere (List.length vs) w] ++ q) = Some (h, cs) /\
    forall y u, nth_error vs' y = Some (Metric u) -> exists c, nth_error cs y = Some c /\ denotes h c u.
Proof.
  intros fmt p q x op w vs l t vs' V Vp Used r Vq.
  destruct (run_ok fmt p [] [] [] vs (Forall2_nil _) V) as (h & rs & E & H & _ & U). cbn [app] in *.
  cbn [value_of] in Vp.
  destruct (nth_error vs x) as [vx|] eqn:Ex; [|discriminate]. destruct vx as [tx|]; [|discriminate].
  destruct (holds_nth _ _ _ _ _ H Ex) as (c & Nc & Dc & Cc).
  destruct (nth_error vs op) as [vo|] eqn:Eo; [|discriminate].
  destruct (holds_nth _ _ _ _ _ H Eo) as (co & No & Ho).
  assert (Q : exists a o ts, co = Ref a /\ denotes h (Ref a) (Node o ts) /\ ts <> [] /\ is_op o = true /\
                named fmt o tx = Some l /\ t = tx).
  { destruct vo as [to|lo].
    - destruct to as [|lo ts]; [discriminate|]. destruct (is_op lo) eqn:O; [|discriminate].
      destruct (named fmt lo tx) as [l'|] eqn:N; [|discriminate]. injection Vp as -> ->.
      destruct Ho as [Do Co]. destruct co as [a|]; [|inversion Do]. exists a, lo, ts.
      inversion Co; subst. auto 7.
    - destruct (named fmt lo tx) as [l'|] eqn:N; [|discriminate]. injection Vp as -> ->.
      destruct Ho as (O & a & o & n & -> & Ea & L & S).
      assert (Ko : kids o <> []).
      { destruct Used as [(m & X)|(y & I)]; [discriminate|].
        destruct (U y op (Ref a) I No) as (a' & o' & X & Ea' & K'). injection X as <-.
        rewrite Ea in Ea'. now injection Ea' as <-. }
      destruct S as [S|(_ & t0 & D0 & C0)]; [congruence|].
      apply denotes_inv in D0 as D1. destruct D1 as (o' & ts & Ea' & F & ->).
      rewrite Ea in Ea'. injection Ea' as <-.
      exists a, (lab o), ts. repeat split; auto.
      + intros ->. inversion F. congruence.
      + now rewrite L.
      + rewrite L. unfold named in *. exact N. }
  destruct Q as (a & o & ts & -> & Do & Ts & O & N & ->).
  destruct (call_copy fmt h a c o ts tx l Do Ts O Dc N) as (h1 & a' & Ec & K & D1 & La).
  set (h2 := set_label h1 a' (add_where w)).
  assert (K2 : kept h h2) by (apply kept_set_label; assumption).
  apply denotes_inv in D1 as D2. destruct D2 as (o1 & us & E1 & F1 & X). injection X as -> <-.
  pose proof (set_label_eq h1 a' o1 (add_where w) E1) as E2. fold h2 in E2.
  assert (Hr : holds h2 (Ref a') r).
  { split.
    - apply (denotes_node h2 a' _ [tx] E2). cbn [kids]. inversion F1 as [|k ? ks ? Dk Fk]; subst.
      inversion Fk; subst. constructor; [|constructor]. eapply denotes_agree; [exact Dk|].
      intros b M. apply set_label_neq. eapply not_below; [exact D1|exact E1| |exact M].
      match goal with Hk : _ = kids o1 |- _ => rewrite <- Hk end. now left.
    - constructor; [discriminate|]. constructor; [exact Cc|constructor]. }
  assert (H2 : Forall2 (holds h2) (rs ++ [Ref a'; Ref a']) (vs ++ [r; r])).
  { apply Forall2_app; [|constructor; [exact Hr|constructor; [exact Hr|constructor]]].
    eapply F2_impl; [|exact H]. intros e u. apply holds_kept. exact K2. }
  destruct (run_ok fmt q h2 _ _ vs' H2 Vq) as (h3 & rs3 & E3 & H3 & _).
  exists h3, ((rs ++ [Ref a'; Ref a']) ++ rs3). split.
  - rewrite run_app. replace (run fmt ([], []) p) with (Some (h, rs)) by (symmetry; exact E).
    cbn [app run step]. rewrite Nc, No, Ec. cbn [step].
    rewrite <- (F2_length _ _ _ H), nth_error_app2, Nat.sub_diag by lia. cbn [nth_error].
    fold h2. rewrite <- app_assoc. exact E3.
  - intros y u Ny. destruct (holds_nth _ _ _ _ _ H3 Ny) as (cy & Ncy & Dy & _). eauto.
Qed.
Print Assumptions C76_filter_on_result.

(** add_where on any variable changes only the metrics its object is part of. *)
Theorem C76_filter_frame : forall h a w c t, denotes h c t -> ~ made_of h c a ->
  denotes (set_label h a (add_where w)) c t.
Proof.
  intros h a w c t D N. apply (denotes_frame h _ a); auto. intros b B. now apply set_label_neq.
Qed.
Print Assumptions C76_filter_frame.

(** ** What does not hold *)
Definition sum_l (v : string) := {| kind := "Sum"; is_op := false; tmpl := Some "sum({})"; nm := v; whr := [] |}.
Definition pct := {| kind := "PercentChange"; is_op := true; tmpl := Some "{} Percent Change"; nm := ""; whr := [] |}.
Definition fmt0 (t n : string) : string := (n ++ t)%string.

(** A filter added to the first result of an operation without a child also filters every later
    result of that operation. *)
Theorem C76_filter_on_first_result_refuted :
  let p := [New (sum_l "x") []; New (sum_l "y") []; New pct []; Pipe 0 2] in
  exists vs l h cs c, values fmt0 [] p = Some vs /\
    value_of fmt0 (vs ++ [Metric (Node (add_where ["a > 0"] l) [Node (sum_l "x") []])]) (Pipe 1 2) =
      Some (Metric (Node l [Node (sum_l "y") []])) /\ whr l = [] /\
    run fmt0 ([], []) (p ++ [AddWhere 3 ["a > 0"]; Pipe 1 2]) = Some (h, cs) /\
    nth_error cs 5 = Some c /\ denotes h c (Node (add_where ["a > 0"] l) [Node (sum_l "y") []]).
Proof.
  eexists _, _, _, _, _. split; [vm_compute; reflexivity|]. split; [vm_compute; reflexivity|].
  split; [reflexivity|]. split; [vm_compute; reflexivity|]. split; [vm_compute; reflexivity|].
  eapply denotes_node with (a := 3) (o := {| lab := _; kids := [Ref 1] |}); [vm_compute; reflexivity|].
  constructor; [|constructor].
  apply (denotes_node _ 1 {| lab := sum_l "y"; kids := [] |} []); [reflexivity|constructor].
Qed.
Print Assumptions C76_filter_on_first_result_refuted.

(** Piping an operation without a child into itself is accepted and makes an object that is its own
    child: it is no metric. *)
Theorem C76_template_as_metric_refuted : exists h cs, values fmt0 [] [New pct []; Pipe 0 0] = None /\
  run fmt0 ([], []) [New pct []; Pipe 0 0] = Some (h, cs) /\
  forall c t, nth_error cs 1 = Some c -> ~ denotes h c t.
Proof.
  eexists _, _. split; [reflexivity|]. split; [vm_compute; reflexivity|].
  intros c t N D. cbn [nth_error] in N. injection N as <-.
  apply denotes_inv in D as D0. destruct D0 as (o & ts & E & F & ->).
  eapply not_below; [exact D|exact E| |apply made_here|reflexivity]. injection E as <-. now left.
Qed.
Print Assumptions C76_template_as_metric_refuted.

(** The name a user gives to an operation is lost when it is applied. *)
Theorem C76_own_name_refuted : exists h cs a o,
  run fmt0 ([], []) [New (sum_l "x") []; New (with_name "my change" pct) []; Pipe 0 1] = Some (h, cs) /\
  nth_error cs 2 = Some (Ref a) /\ nth_error h a = Some o /\ nm (lab o) = "x{} Percent Change".
Proof. eexists _, _, _, _. repeat split; vm_compute; reflexivity. Qed.

(** One operation used three times, and its result used as an operation. *)
Example C76_example :
  let p := [New (sum_l "x") []; New (sum_l "y") []; New pct []; Pipe 0 2; Pipe 1 2; New (sum_l "ratio") [Var 0; Var 1];
            Pipe 5 3; Pipe 4 2] in
  exists vs h cs, values fmt0 [] p = Some vs /\ run fmt0 ([], []) p = Some (h, cs) /\
    map (fun v => match v with Metric t => name_of t | Template _ => "" end) vs =
      ["x"; "y"; ""; "x{} Percent Change"; "y{} Percent Change"; "ratio"; "ratio{} Percent Change";
       "y{} Percent Change{} Percent Change"].
Proof.
  eexists _, _, _. split; [vm_compute; reflexivity|]. split; [vm_compute; reflexivity|]. reflexivity.
Qed.

(** The hypotheses of C76_filter_on_result: the second result of an operation is filtered, and the
    third is not. *)
Example C76_filter_case :
  let p := [New (sum_l "x") []; New (sum_l "y") []; New pct []; Pipe 0 2] in
  exists vs l vs', values fmt0 [] p = Some vs /\
    value_of fmt0 vs (Pipe 1 2) = Some (Metric (Node l [Node (sum_l "y") []])) /\ (exists y, In (Pipe y 2) p) /\
    (let r := Metric (Node (add_where ["a > 0"] l) [Node (sum_l "y") []]) in
     values fmt0 (vs ++ [r; r]) [Pipe 1 2] = Some vs' /\
     nth_error vs' 6 = Some (Metric (Node l [Node (sum_l "y") []]))) /\ whr l = [].
Proof.
  eexists _, _, _. split; [vm_compute; reflexivity|]. split; [vm_compute; reflexivity|].
  split; [exists 0; cbn [In]; auto 6|]. split; [split; vm_compute; reflexivity|reflexivity].
Qed.

(** * C77 *)

(** A deep copy is the same metric made of new objects, and the original is not touched. *)
Theorem C77_deepcopy : forall h c t, denotes h c t -> exists h' c', deepcopy h c = Some (h', c') /\
  kept h h' /\ denotes h' c' t /\ all_new h h' c'.
Proof. exact deepcopy_ok. Qed.
Print Assumptions C77_deepcopy.

(** Pushing filters to the leaves. *)
Theorem C77_push_filters : forall key h c t, denotes h c t -> exists h' c' t',
  push_filters_to_leaf key h c = Some (h', c') /\ kept h h' /\ denotes h' c' t' /\ pushed key t t' /\
  all_new h h' c'.
Proof. intros key h c t D. exact (push_filters_ok key t h c D). Qed.
Print Assumptions C77_push_filters.

(** Replacing metrics by their equivalents, once and until nothing changes. *)
Definition expanded_leaf (equivalent : label -> option tree) (l : label) : tree :=
  match equivalent l with Some t => t | None => Node l [] end.

Theorem C77_equivalent_tree : forall equivalent h c l u us, denotes h c (Node l (u :: us)) ->
  exists h' c', get_equivalent_metric_tree equivalent h c = Some (h', c') /\ kept h h' /\
    denotes h' c' (rewritten (expanded_leaf equivalent) (fun l => l) (Node l (u :: us))) /\ all_new h h' c'.
Proof.
  intros equivalent h c l u us D.
  destruct (equivalent_ok equivalent (S (List.length h)) (Node l (u :: us))) with (h := h) (c := c)
    as (h' & c' & E & K & D' & M); [pose proof (height_le _ _ _ D); lia|exact D|].
  exists h', c'. split; [exact E|]. split; [exact K|]. split; [exact D'|].
  apply new_iff. intros b Mb. destruct (M b Mb) as [L|[_ (l0 & X)]]; [exact L|discriminate].
Qed.
Print Assumptions C77_equivalent_tree.

Theorem C77_fully_expanded : forall equivalent same k h c l u us h' c', denotes h c (Node l (u :: us)) ->
  get_fully_expanded equivalent same k h c = Some (h', c') ->
  kept h h' /\ all_new h h' c' /\
  exists j, denotes h' c' (Nat.iter (S j) (rewritten (expanded_leaf equivalent) (fun l => l)) (Node l (u :: us))).
Proof.
  intros equivalent same k h c l u us h' c' D G. unfold get_fully_expanded in G.
  set (f := rewritten (expanded_leaf equivalent) (fun l => l)) in *.
  destruct (C77_equivalent_tree equivalent h c l u us D) as (h1 & c1 & E1 & K1 & D1 & N1). rewrite E1 in G.
  fold f in D1. change (denotes h1 c1 (Nat.iter 1 f (Node l (u :: us)))) in D1.
  assert (L : forall k j h1 c0 c1, kept h h1 -> all_new h h1 c1 ->
            denotes h1 c1 (Nat.iter (S j) f (Node l (u :: us))) ->
            expand equivalent same k h1 c0 c1 = Some (h', c') ->
            kept h h' /\ all_new h h' c' /\ exists j, denotes h' c' (Nat.iter (S j) f (Node l (u :: us)))).
  { clear. induction k as [|k IH]; intros j h1 c0 c1 K N D G; cbn [expand] in G.
    - destruct (same h1 c0 c1); [|discriminate]. injection G as <- <-. eauto.
    - destruct (same h1 c0 c1); [injection G as <- <-; eauto|].
      assert (exists v vs, Nat.iter (S j) f (Node l (u :: us)) = Node l (v :: vs)) as (v & vs & Ev).
      { clear. induction j as [|j (v & vs & IH)]; [eexists _, _; reflexivity|].
        change (Nat.iter (S (S j)) f (Node l (u :: us))) with (f (Nat.iter (S j) f (Node l (u :: us)))). rewrite IH. eexists _, _. reflexivity. }
      pose proof D as D0. rewrite Ev in D0.
      destruct (C77_equivalent_tree equivalent h1 c1 l v vs D0) as (h2 & c2 & E2 & K2 & D2 & N2). rewrite E2 in G.
      fold f in D2. rewrite <- Ev in D2.
      apply (IH (S j) h2 c1 c2); [eapply kept_trans; eauto|eapply new_weaken; eauto|exact D2|exact G]. }
  exact (L k 0 h1 c c1 K1 N1 D1 G).
Qed.
Print Assumptions C77_fully_expanded.

(** The metric on the preaggregated data. *)
Theorem C77_preaggregated_tree : forall preaggregated h c t, denotes h c t ->
  exists h' c', get_preaggregated_metric_tree preaggregated h c = Some (h', c') /\ kept h h' /\
    denotes h' c' (rewritten (fun l => Node (preaggregated l) []) (fun l => l) t) /\ all_new h h' c'.
Proof.
  intros preaggregated h c t D.
  destruct (preaggregated_ok preaggregated (S (List.length h)) t) with (h := h) (c := c)
    as (h' & c' & t' & E & K & D' & -> & N); [pose proof (height_le _ _ _ D); lia|exact D|].
  exists h', c'. auto.
Qed.
Print Assumptions C77_preaggregated_tree.

(** The metric on the leave-one-out table; only metrics without children are replaced. *)
Inductive only_leaves (loo_leaf : label -> option label) : tree -> Prop :=
| only_const s : only_leaves loo_leaf (TConst s)
| only_node l ts : (ts <> [] -> loo_leaf l = None) -> Forall (only_leaves loo_leaf) ts ->
    only_leaves loo_leaf (Node l ts).

Theorem C77_jackknife_fast : forall loo_inner loo_leaf h c t, denotes h c t -> only_leaves loo_leaf t ->
  exists h' c', modify_for_jackknife_fast loo_inner loo_leaf h c = Some (h', c') /\ kept h h' /\
    denotes h' c' (rewritten
      (fun l => match loo_leaf l with Some l' => Node l' [] | None => Node (loo_inner (with_where [] l)) [] end)
      (fun l => loo_inner (with_where [] l)) t) /\ all_new h h' c'.
Proof.
  intros loo_inner loo_leaf h c t D O.
  assert (O' : loo_ok loo_leaf t).
  { clear - O. induction t as [s|l ts IH] using tree_ind2; [constructor|].
    inversion O as [|? ? Hl F]; subst. constructor; [exact Hl|].
    clear O Hl. induction F; constructor; inversion IH; auto. }
  destruct (modify_ok loo_inner loo_leaf (S (List.length h)) t) with (h := h) (c := c)
    as (h' & c' & t' & E & K & D' & -> & N); [pose proof (height_le _ _ _ D); lia|exact O'|exact D|].
  exists h', c'. auto.
Qed.
Print Assumptions C77_jackknife_fast.

(** What is done to a rewritten metric afterwards cannot reach the metrics that existed before: after
    any writes to objects of the result, all of them are as they were. *)
Inductive writes (c : child) : heap -> heap -> Prop :=
| writes_none h : writes c h h
| writes_label h a f h' : made_of h c a -> writes c (set_label h a f) h' -> writes c h h'
| writes_kids h a ks h' : made_of h c a ->
    (forall k, In k ks -> forall b, made_of h k b -> made_of h c b) ->
    writes c (set_kids h a ks) h' -> writes c h h'.

Theorem C77_independent : forall h h1 h2 c c0 t0, kept h h1 -> all_new h h1 c -> writes c h1 h2 ->
  denotes h c0 t0 -> denotes h2 c0 t0.
Proof.
  intros h h1 h2 c c0 t0 K N W D.
  assert (K2 : kept h h2).
  { clear D. induction W as [h1|h1 a f h2 M W IH|h1 a ks h2 M Q W IH]; [exact K| |]; apply IH.
    - apply kept_set_label; [exact K|]. exact (proj1 (new_iff _ _ _) N a M).
    - intros b Mb. apply N. clear - Mb. induction Mb as [a'|a' o k b E Kin Mb I]; [constructor|].
      destruct (Nat.eq_dec a' a) as [->|Na].
      + unfold set_label in E. destruct (nth_error h1 a) as [o1|] eqn:E1.
        * rewrite update_eq in E by (apply nth_error_Some; congruence). injection E as <-.
          econstructor; eauto.
        * rewrite E1 in E. discriminate.
      + rewrite set_label_neq in E by exact Na. econstructor; eauto.
    - apply kept_set_kids; [exact K|]. exact (proj1 (new_iff _ _ _) N a M).
    - intros b Mb. apply N. clear - M Q Mb.
      assert (G : forall k, made_of (set_kids h1 a ks) k b -> (forall b, made_of h1 k b -> made_of h1 c b) -> made_of h1 c b).
      { clear Mb. intros k Mk. induction Mk as [a'|a' o k b E Kin Mb I]; intros S; [apply S; constructor|].
        destruct (Nat.eq_dec a' a) as [->|Na].
        - unfold set_kids in E. destruct (nth_error h1 a) as [o1|] eqn:E1.
          + rewrite update_eq in E by (apply nth_error_Some; congruence). injection E as <-. cbn [kids] in Kin.
            apply I. intros b' Mb'. exact (Q k Kin b' Mb').
          + rewrite E1 in E. discriminate.
        - rewrite set_kids_neq in E by exact Na. apply I. intros b' Mb'. apply S. econstructor; eauto. }
      apply (G c Mb). auto. }
  eapply kept_denotes; eauto.
Qed.
Print Assumptions C77_independent.

(** A ratio of one Sum by itself below a filtered list: the two uses of the shared leaf become two
    objects with the filter of the list, the original list and leaf keep theirs. *)
Example C77_example :
  let h := [{| lab := sum_l "x"; kids := [] |};
            {| lab := with_name "r" (sum_l "x"); kids := [Ref 0; Ref 0; Const "2"] |};
            {| lab := with_where ["a"] (with_name "list" (sum_l "x")); kids := [Ref 1] |}] in
  let t := Node (with_where ["a"] (with_name "list" (sum_l "x")))
             [Node (with_name "r" (sum_l "x")) [Node (sum_l "x") []; Node (sum_l "x") []; TConst "2"]] in
  denotes h (Ref 2) t /\
  exists h' c', push_filters_to_leaf [] h (Ref 2) = Some (h', c') /\
    denotes h' c' (Node (with_name "list" (sum_l "x"))
      [Node (with_name "r" (sum_l "x"))
        [Node (with_where ["a"] (sum_l "x")) []; Node (with_where ["a"] (sum_l "x")) []; TConst "2"]]).
Proof.
  intros h t.
  assert (D : denotes h (Ref 2) t).
  { apply (denotes_node h 2 (nth 2 h {| lab := pct; kids := [] |})); [reflexivity|]. constructor; [|constructor].
    apply (denotes_node h 1 (nth 1 h {| lab := pct; kids := [] |})); [reflexivity|].
    constructor; [|constructor; [|constructor; [constructor|constructor]]];
    (apply (denotes_node h 0 (nth 0 h {| lab := pct; kids := [] |})); [reflexivity|constructor]). }
  split; [exact D|]. eexists _, _. split; [vm_compute; reflexivity|].
  apply denotes_node with (o := {| lab := with_name "list" (sum_l "x"); kids := [Ref 5] |}) (a := 3); [reflexivity|].
  constructor; [|constructor].
  apply denotes_node with (o := {| lab := with_name "r" (sum_l "x"); kids := [Ref 8; Ref 9; Const "2"] |}) (a := 5);
    [reflexivity|].
  constructor; [|constructor; [|constructor; [constructor|constructor]]].
  - apply denotes_node with (o := {| lab := with_where ["a"] (sum_l "x"); kids := [] |}) (a := 8); [reflexivity|constructor].
  - apply denotes_node with (o := {| lab := with_where ["a"] (sum_l "x"); kids := [] |}) (a := 9); [reflexivity|constructor].
Qed.
