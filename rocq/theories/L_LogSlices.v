(** Fitting all slices at once: each slice gets what it gets alone. *)
From Coq Require Import Reals List Arith Bool Lia.
From Verif Require Import M_Num M_Frame L_Fsum M_Models M_Logistic.
Import ListNotations.
Open Scope list_scope.

Section Slices.
  Variable L : Type.
  Variable label_eqb : L -> L -> bool.
  Variables (k : nat) (fit : bool) (pen : option R).
  Variable solve : nat -> mat -> list R -> list R.
  Variable tol : R.
  Variable t : list (L * (list R * R)).
  Notation m := (n_xs k fit).
  (** label, coefficients, converged *)
  Notation st := (prod (prod L (list R)) bool).
  Definition s_cond (s : st) := fst (fst s).
  Definition s_coef (s : st) := snd (fst s).
  Definition s_done (s : st) := snd s.
  Lemma combine_st (l : list st) : combine (combine (map s_cond l) (map s_coef l)) (map s_done l) = l.
  Proof. induction l as [|[[a b] c] l IH]; [reflexivity|]. cbn in *. rewrite IH. reflexivity. Qed.
  Definition g_of (rows : list row) (coef : list R) : list R := grad_query k fit pen coef rows.
  Definition h_of (rows : list row) (coef : list R) : mat :=
    match symmetrize (hess_query k fit pen coef rows) with Some (_, h) => h | None => fun _ _ => 0%R end.
  Lemma grad_query_length coef rows : List.length (grad_query k fit pen coef rows) = m.
  Proof. unfold grad_query. rewrite map_length, seq_length. reflexivity. Qed.
  Lemma hess_query_length coef rows : List.length (hess_query k fit pen coef rows) = List.length (triu m).
  Proof.
    unfold hess_query. destruct pen; rewrite ?map_length; [|reflexivity].
    rewrite combine_length, seq_length, !map_length. lia.
  Qed.
  Lemma deal_grads_spec (l : list st) rest :
    deal_grads k fit (List.concat (map (fun s : st => if snd s then [] else grad_query k fit pen (snd (fst s)) (slice_rows L label_eqb t (fst (fst s)))) l) ++ rest)
               (map s_done l)
    = (map (fun s => if s_done s then repeat 0%R m else g_of (slice_rows L label_eqb t (s_cond s)) (s_coef s)) l, rest).
  Proof.
    induction l as [|[[c w] d] l IH]; [reflexivity|]. cbn [map List.concat s_done snd fst deal_grads s_cond s_coef]. destruct d.
    - cbn [app]. rewrite IH. reflexivity.
    - rewrite <- app_assoc.
      rewrite skipn_app, (skipn_all2 (n := m)) by (rewrite grad_query_length; lia).
      rewrite grad_query_length, Nat.sub_diag. cbn [skipn app]. rewrite IH.
      rewrite firstn_app, grad_query_length, Nat.sub_diag. cbn [firstn]. rewrite app_nil_r.
      rewrite <- (grad_query_length w (slice_rows L label_eqb t c)), firstn_all. reflexivity.
  Qed.
  Lemma deal_hess_spec (l : list st) rest :
    deal_hess k fit (List.concat (map (fun s : st => if snd s then [] else hess_query k fit pen (snd (fst s)) (slice_rows L label_eqb t (fst (fst s)))) l) ++ rest)
               (map s_done l)
    = map (fun s => if s_done s then fun _ _ => 0%R else h_of (slice_rows L label_eqb t (s_cond s)) (s_coef s)) l.
  Proof.
    induction l as [|[[c w] d] l IH]; [reflexivity|]. cbn [map List.concat s_done snd fst deal_hess s_cond s_coef]. destruct d.
    - cbn [app]. rewrite IH. reflexivity.
    - rewrite <- app_assoc.
      rewrite skipn_app, (skipn_all2 (n := List.length (triu m))) by (rewrite hess_query_length; lia).
      rewrite hess_query_length, Nat.sub_diag. cbn [skipn app]. rewrite IH.
      rewrite firstn_app, hess_query_length, Nat.sub_diag. cbn [firstn]. rewrite app_nil_r.
      rewrite <- (hess_query_length w (slice_rows L label_eqb t c)), firstn_all. reflexivity.
  Qed.
  Lemma compute_spec (l : list st) ignore :
    compute_grads_and_hess L label_eqb k fit pen t (map s_cond l) (map s_coef l) (map s_done l) ignore
    = (map (fun s => if s_done s then repeat 0%R m else g_of (slice_rows L label_eqb t (s_cond s)) (s_coef s)) l,
       if ignore then [] else map (fun s => if s_done s then fun _ _ => 0%R else h_of (slice_rows L label_eqb t (s_cond s)) (s_coef s)) l).
  Proof.
    unfold compute_grads_and_hess, pending_columns. rewrite combine_st. rewrite deal_grads_spec.
    destruct ignore; [reflexivity|]. f_equal.
    rewrite <- (deal_hess_spec l []), app_nil_r. reflexivity.
  Qed.

  (** ** Newton *)
  (** one slice by itself *)
  Fixpoint one (rows : list row) (n : nat) (w : list R) (d : bool) : list R * bool :=
    match n with
    | O => (w, d)
    | S n' => if d then (w, true)
              else let (w', d') := newton_slice k fit solve tol w (g_of rows w) (h_of rows w) false in one rows n' w' d'
    end.
  Lemma one_done rows n w : one rows n w true = (w, true).
  Proof. destruct n; reflexivity. Qed.
  Definition next (s : st) : st :=
    let (w, d) := newton_slice k fit solve tol (s_coef s)
                    (if s_done s then repeat 0%R m else g_of (slice_rows L label_eqb t (s_cond s)) (s_coef s))
                    (if s_done s then fun _ _ => 0%R else h_of (slice_rows L label_eqb t (s_cond s)) (s_coef s)) (s_done s)
    in (s_cond s, w, d).
  Lemma newton_slices_spec (l : list st) :
    newton_slices k fit solve tol (map s_coef l)
      (map (fun s => if s_done s then repeat 0%R m else g_of (slice_rows L label_eqb t (s_cond s)) (s_coef s)) l)
      (map (fun s => if s_done s then fun _ _ => 0%R else h_of (slice_rows L label_eqb t (s_cond s)) (s_coef s)) l)
      (map s_done l)
    = (map s_coef (map next l), map s_done (map next l)).
  Proof.
    induction l as [|s l IH]; [reflexivity|]. cbn [map newton_slices]. rewrite IH.
    set (nl := map next l). clearbody nl. unfold next.
    destruct (newton_slice k fit solve tol (s_coef s) _ _ (s_done s)) as [w d]. reflexivity.
  Qed.
  Lemma one_next n s : one (slice_rows L label_eqb t (s_cond s)) (S n) (s_coef s) (s_done s)
                       = one (slice_rows L label_eqb t (s_cond s)) n (s_coef (next s)) (s_done (next s)).
  Proof.
    destruct s as [[c w] d]. unfold next. cbn [s_cond s_coef s_done fst snd]. destruct d.
    - cbn [newton_slice s_coef s_done fst snd]. rewrite !one_done. reflexivity.
    - cbn [one]. destruct (newton_slice k fit solve tol w _ _ false) as [w' d']. reflexivity.
  Qed.
  Lemma next_cond s : s_cond (next s) = s_cond s.
  Proof. unfold next. destruct (newton_slice _ _ _ _ _ _ _ _). reflexivity. Qed.
  Lemma newtons_method_spec n : forall l : list st,
    newtons_method L label_eqb k fit pen solve tol t (map s_cond l) n (map s_coef l) (map s_done l)
    = (map (fun s => fst (one (slice_rows L label_eqb t (s_cond s)) n (s_coef s) (s_done s))) l,
       map (fun s => snd (one (slice_rows L label_eqb t (s_cond s)) n (s_coef s) (s_done s))) l).
  Proof.
    induction n as [|n IH]; intros l.
    - cbn [newtons_method one]. reflexivity.
    - cbn [newtons_method]. rewrite compute_spec, newton_slices_spec.
      rewrite (map_ext (fun s => fst (one (slice_rows L label_eqb t (s_cond s)) (S n) (s_coef s) (s_done s)))
                 (fun s => fst (one (slice_rows L label_eqb t (s_cond (next s))) n (s_coef (next s)) (s_done (next s))))).
      2:{ intros s. rewrite one_next, next_cond. reflexivity. }
      rewrite (map_ext (fun s => snd (one (slice_rows L label_eqb t (s_cond s)) (S n) (s_coef s) (s_done s)))
                 (fun s => snd (one (slice_rows L label_eqb t (s_cond (next s))) n (s_coef (next s)) (s_done (next s))))).
      2:{ intros s. rewrite one_next, next_cond. reflexivity. }
      rewrite <- (map_map next (fun s => fst (one (slice_rows L label_eqb t (s_cond s)) n (s_coef s) (s_done s)))).
      rewrite <- (map_map next (fun s => snd (one (slice_rows L label_eqb t (s_cond s)) n (s_coef s) (s_done s)))).
      replace (map s_cond l) with (map s_cond (map next l)) by (rewrite map_map; apply map_ext, next_cond).
      destruct (forallb (fun b => b) (map s_done (map next l))) eqn:E; [|apply IH].
      rewrite forallb_forall in E.
      assert (D : forall s, In s (map next l) -> s_done s = true).
      { intros s Hs. apply E. apply in_map. exact Hs. }
      f_equal; apply map_ext_in; intros s Hs; rewrite (D s Hs), one_done; reflexivity.
  Qed.

  (** ** the proximal iteration *)
  Notation fstate := (prod (prod (list R) (list R)) bool).
  (** label, parameters, state *)
  Notation ft := (prod (prod L (prod (prod R R) R)) fstate).
  Definition f_cond (s : ft) := fst (fst s).
  Definition f_par (s : ft) := snd (fst s).
  Definition f_st (s : ft) := snd s.
  Fixpoint fone (rows : list row) (p : R * R * R) (n i : nat) (s : fstate) : fstate :=
    match n with
    | O => s
    | S n' => if snd s then s else fone rows p n' (S i) (fista_slice k fit tol p i s (g_of rows (momentum i s)))
    end.
  Lemma fone_done rows p n i s : snd s = true -> fone rows p n i s = s.
  Proof. intros H. destruct n; [reflexivity|]. cbn [fone]. rewrite H. reflexivity. Qed.
  Definition fg (i : nat) (s : ft) : list R :=
    if snd (f_st s) then repeat 0%R m else g_of (slice_rows L label_eqb t (f_cond s)) (momentum i (f_st s)).
  Definition fnext (i : nat) (s : ft) : ft :=
    (fst s, fista_slice k fit tol (f_par s) i (f_st s) (fg i s)).
  Lemma fista_slices_spec i (l : list ft) :
    fista_slices k fit tol (map f_par l) i (map f_st l) (map (fg i) l) = map f_st (map (fnext i) l).
  Proof. induction l as [|s l IH]; [reflexivity|]. cbn [map fista_slices]. rewrite IH. reflexivity. Qed.
  Lemma fista_grads i (l : list ft) :
    fst (compute_grads_and_hess L label_eqb k fit pen t (map f_cond l) (map (momentum i) (map f_st l)) (map snd (map f_st l)) true)
    = map (fg i) l.
  Proof.
    assert (E := compute_spec (map (fun s : ft => (f_cond s, momentum i (f_st s), snd (f_st s))) l) true).
    rewrite !map_map in E. rewrite !map_map. unfold s_cond at 1, s_coef at 1, s_done at 1 in E. cbn [fst snd] in E.
    change (fun x : ft => f_cond x) with f_cond in E. rewrite E. reflexivity.
  Qed.
  Lemma fone_next n i s : fone (slice_rows L label_eqb t (f_cond s)) (f_par s) (S n) i (f_st s)
                          = fone (slice_rows L label_eqb t (f_cond (fnext i s))) (f_par (fnext i s)) n (S i) (f_st (fnext i s)).
  Proof.
    destruct s as [[c p] s]. unfold fnext, fg, f_cond, f_par, f_st. cbn [fst snd fone]. destruct (snd s) eqn:E; [|reflexivity].
    destruct p as [[step kk] thr]. destruct s as [[w dl] d]. cbn [snd] in E. subst d.
    cbn [fista_slice]. rewrite fone_done by reflexivity. reflexivity.
  Qed.
  Lemma fista_logistic_spec n : forall i (l : list ft),
    fista_logistic L label_eqb k fit pen tol t (map f_cond l) (map f_par l) n i (map f_st l)
    = map (fun s => fone (slice_rows L label_eqb t (f_cond s)) (f_par s) n i (f_st s)) l.
  Proof.
    induction n as [|n IH]; intros i l; [reflexivity|].
    cbn [fista_logistic]. rewrite fista_grads, fista_slices_spec.
    rewrite (map_ext (fun s => fone (slice_rows L label_eqb t (f_cond s)) (f_par s) (S n) i (f_st s))
               (fun s => fone (slice_rows L label_eqb t (f_cond (fnext i s))) (f_par (fnext i s)) n (S i) (f_st (fnext i s))) (fone_next n i)).
    rewrite <- (map_map (fnext i) (fun s => fone (slice_rows L label_eqb t (f_cond s)) (f_par s) n (S i) (f_st s))).
    replace (map f_cond l) with (map f_cond (map (fnext i) l)) by (rewrite map_map; reflexivity).
    replace (map f_par l) with (map f_par (map (fnext i) l)) by (rewrite map_map; reflexivity).
    destruct (forallb snd (map f_st (map (fnext i) l))) eqn:E; [|apply IH].
    rewrite forallb_forall in E. apply map_ext_in. intros s Hs. rewrite fone_done; [reflexivity|].
    apply E. apply in_map. exact Hs.
  Qed.
End Slices.

(** ** one slice only *)
Definition alone (rows : list row) : list (unit * (list R * R)) := map (fun r => (tt, r)) rows.
Definition any_label (a b : unit) : bool := true.
Lemma slice_rows_alone rows : slice_rows unit any_label (alone rows) tt = rows.
Proof.
  unfold slice_rows, alone. induction rows as [|r rows IH]; [reflexivity|]. cbn [map filter any_label fst snd]. cbn [map]. f_equal. exact IH.
Qed.
Lemma newton_alone k fit pen solve tol rows n w :
  newton_magic unit any_label k fit pen solve tol (alone rows) [tt] n [w]
  = ([fst (one k fit pen solve tol rows n w false)], [snd (one k fit pen solve tol rows n w false)]).
Proof.
  unfold newton_magic.
  assert (E := newtons_method_spec unit any_label k fit pen solve tol (alone rows) n [(tt, w, false)]).
  cbn [map s_cond s_coef s_done fst snd] in E. rewrite slice_rows_alone in E. exact E.
Qed.
Lemma newton_all L eqb k fit pen solve tol t conds n init : List.length conds = List.length init ->
  newton_magic L eqb k fit pen solve tol t conds n init
  = (map (fun cw => fst (one k fit pen solve tol (slice_rows L eqb t (fst cw)) n (snd cw) false)) (combine conds init),
     map (fun cw => snd (one k fit pen solve tol (slice_rows L eqb t (fst cw)) n (snd cw) false)) (combine conds init)).
Proof.
  intros H. unfold newton_magic.
  assert (E := newtons_method_spec L eqb k fit pen solve tol t n (map (fun cw => (fst cw, snd cw, false)) (combine conds init))).
  rewrite !map_map in E. unfold s_cond, s_coef, s_done in E. cbn [fst snd] in E.
  change (fun x : L * list R => fst x) with (@fst L (list R)) in E. change (fun x : L * list R => snd x) with (@snd L (list R)) in E.
  assert (C1 : map fst (combine conds init) = conds).
  { clear E. revert init H. induction conds as [|a l IH]; intros [|b init] H; try discriminate; [reflexivity|].
    cbn [combine map fst]. f_equal. apply IH. injection H as H. exact H. }
  assert (C2 : map snd (combine conds init) = init).
  { clear E C1. revert init H. induction conds as [|a l IH]; intros [|b init] H; try discriminate; [reflexivity|].
    cbn [combine map snd]. f_equal. apply IH. injection H as H. exact H. }
  rewrite <- E. rewrite C1, C2. f_equal. rewrite <- C2 at 1. rewrite map_map. reflexivity.
Qed.
Lemma nth_combine_map {A B C} (f : A * B -> C) (l : list A) (l' : list B) i a b :
  nth_error l i = Some a -> nth_error l' i = Some b -> nth_error (map f (combine l l')) i = Some (f (a, b)).
Proof.
  revert l l'. induction i as [|i IH]; intros [|x l] [|y l'] H1 H2; try discriminate; cbn in *.
  - injection H1 as <-. injection H2 as <-. reflexivity.
  - apply IH; assumption.
Qed.
Definition zero_delta (c : list R) : list R * list R * bool := (c, map (fun _ => 0%R) c, false).
Lemma fista_alone k fit pen tol rows p n w :
  fista_magic unit any_label k fit pen tol (alone rows) [tt] [p] n [w] = [fone k fit pen tol rows p n 0 (zero_delta w)].
Proof.
  unfold fista_magic.
  assert (E := fista_logistic_spec unit any_label k fit pen tol (alone rows) n 0 [(tt, p, zero_delta w)]).
  cbn [map f_cond f_par f_st fst snd] in E. rewrite slice_rows_alone in E. exact E.
Qed.
Lemma fista_all L eqb k fit pen tol t conds ps n init : List.length conds = List.length init -> List.length ps = List.length init ->
  fista_magic L eqb k fit pen tol t conds ps n init
  = map (fun cpw => fone k fit pen tol (slice_rows L eqb t (fst (fst cpw))) (snd (fst cpw)) n 0 (zero_delta (snd cpw)))
        (combine (combine conds ps) init).
Proof.
  intros H1 H2. unfold fista_magic.
  assert (E := fista_logistic_spec L eqb k fit pen tol t n 0 (map (fun cpw => (fst cpw, zero_delta (snd cpw))) (combine (combine conds ps) init))).
  rewrite !map_map in E. unfold f_cond, f_par, f_st in E. cbn [fst snd] in E. rewrite <- E.
  assert (C : map (fun x => fst (fst x)) (combine (combine conds ps) init) = conds
            /\ map (fun x => snd (fst x)) (combine (combine conds ps) init) = ps
            /\ map (fun x => zero_delta (snd x)) (combine (combine conds ps) init) = map zero_delta init).
  { clear E. revert ps init H1 H2. induction conds as [|a l IH]; intros [|p ps] [|b init] H1 H2; try discriminate; [repeat split|].
    cbn [combine map fst snd]. injection H1 as H1. injection H2 as H2. destruct (IH ps init H1 H2) as [A [B C]].
    rewrite A, B, C. repeat split. }
  destruct C as [A [B C]]. rewrite A, B, C. reflexivity.
Qed.
