(** The pipeline operator keeps values. *)
From Coq Require Import List String Bool Arith Lia.
Import ListNotations.
From Verif Require Import M_Objects S_Objects L_Objects1 L_Objects2.

(** Every operation in the tree has its child. *)
Inductive complete : tree -> Prop :=
| complete_const s : complete (TConst s)
| complete_node l ts : (is_op l = true -> ts <> []) -> Forall complete ts -> complete (Node l ts).

(** What a variable holds. *)
Definition holds (h : heap) (c : child) (v : value) : Prop :=
  match v with
  | Metric t => denotes h c t /\ complete t
  | Template l => is_op l = true /\
      exists a o n, c = Ref a /\ nth_error h a = Some o /\ lab o = with_name n l /\
        (kids o = [] \/ kids o <> [] /\ exists t, denotes h c t /\ complete t)
  end.

Lemma complete_made_of : forall h c t b o, denotes h c t -> complete t -> made_of h c b ->
  nth_error h b = Some o -> is_op (lab o) = true -> kids o <> [].
Proof.
  intros h c t b o D C M. revert t o D C. induction M as [a|a o' k b E K M IH]; intros t o D C E' O.
  - apply denotes_inv in D as (o1 & ts & E1 & F & ->). rewrite E' in E1. injection E1 as <-.
    inversion C; subst. intros N. rewrite N in F. inversion F; subst. now apply H1.
  - apply denotes_inv in D as (o1 & ts & E1 & F & ->). rewrite E in E1. injection E1 as <-.
    inversion C as [|? ? _ CF]; subst. destruct (F2_left _ _ _ _ F K) as (u & U & Du).
    rewrite Forall_forall in CF. exact (IH u o Du (CF u U) E' O).
Qed.

Lemma holds_kept : forall h h' c v, kept h h' -> holds h c v -> holds h' c v.
Proof.
  intros h h' c v K H. destruct v as [t|l]; cbn [holds] in *.
  - destruct H as [D C]. split; [eapply kept_denotes; eauto|exact C].
  - destruct H as (O & a & o & n & -> & E & L & S). split; [exact O|]. exists a, o, n.
    split; [reflexivity|]. split; [apply K; exact E|]. split; [exact L|].
    destruct S as [S|(Sk & t & D & C)]; [now left|right]. split; [exact Sk|]. exists t.
    split; [eapply kept_denotes; eauto|exact C].
Qed.

(** Writing to one object changes only the metrics it is part of. *)
Lemma denotes_frame : forall h h' a c t, (forall b, b <> a -> nth_error h' b = nth_error h b) ->
  denotes h c t -> ~ made_of h c a -> denotes h' c t.
Proof.
  intros h h' a c t G D N. eapply denotes_agree; [exact D|]. intros b M. apply G. intros ->. now apply N.
Qed.

Section Values.
Variable fmt : string -> string -> string.

Lemma get_name_ok : forall h c t, denotes h c t -> get_name h c = Some (name_of t).
Proof.
  intros h c t D. destruct D as [s|a o ts E F]; cbn [get_name name_of]; [reflexivity|]. now rewrite E.
Qed.

Lemma call_copy : forall h op c l ts t l', denotes h (Ref op) (Node l ts) -> ts <> [] -> is_op l = true ->
  denotes h c t -> named fmt l t = Some l' ->
  exists h' a', call fmt h op c = Some (h', Ref a') /\ kept h h' /\ denotes h' (Ref a') (Node l' [t]) /\
    List.length h <= a'.
Proof.
  intros h op c l ts t l' D T O Dc N.
  pose proof D as D0. apply denotes_inv in D0 as (o & us & E & F & X). injection X as -> ->.
  destruct (deepcopy_ref h op _ D) as (h1 & a' & Ed & K & D1 & New & La).
  assert (Dc1 : denotes h1 c t) by (eapply kept_denotes; eauto).
  apply denotes_inv in D1 as D2. destruct D2 as (o1 & us1 & E1 & F1 & X). injection X as XL _.
  unfold named in N. destruct (tmpl (lab o)) as [s|] eqn:Tm; [|discriminate]. injection N as <-.
  set (h2 := set_label h1 a' (with_name (fmt s (name_of t)))).
  assert (E2 : nth_error h2 a' = Some {| lab := with_name (fmt s (name_of t)) (lab o1); kids := kids o1 |})
    by (apply set_label_eq; exact E1).
  exists (set_kids h2 a' [c]), a'. split.
  - unfold call. rewrite E, O, Tm.
    assert (Q : match kids o with [] => Some (h, Ref op) | _ => deepcopy h (Ref op) end = Some (h1, Ref a')).
    { destruct (kids o); [inversion F; subst; congruence|exact Ed]. }
    rewrite Q, (get_name_ok _ _ _ Dc1). reflexivity.
  - split; [apply kept_set_kids; [apply kept_set_label|]; auto|]. split; [|exact La].
    rewrite XL. pose proof (set_kids_eq h2 a' _ [c] E2) as E3. cbn [lab] in E3.
    apply (denotes_node _ a' _ [t] E3). cbn [kids]. constructor; [|constructor].
    apply (kept_denotes h); [|exact Dc]. apply kept_set_kids; [apply kept_set_label|]; auto.
Qed.

(** The first call of a template. *)
Lemma call_first : forall h op c o n l t l', nth_error h op = Some o -> kids o = [] -> is_op l = true ->
  lab o = with_name n l -> denotes h c t -> complete t -> named fmt l t = Some l' ->
  exists h', call fmt h op c = Some (h', Ref op) /\ (forall b, b <> op -> nth_error h' b = nth_error h b) /\
    nth_error h' op = Some {| lab := l'; kids := [c] |} /\ denotes h' (Ref op) (Node l' [t]).
Proof.
  intros h op c o n l t l' E Ko O L Dc C N.
  unfold named in N. destruct (tmpl l) as [s|] eqn:Tm; [|discriminate]. injection N as <-.
  set (h2 := set_label h op (with_name (fmt s (name_of t)))).
  assert (E2 : nth_error h2 op = Some {| lab := with_name (fmt s (name_of t)) (lab o); kids := kids o |})
    by (apply set_label_eq; exact E).
  assert (G : forall b, b <> op -> nth_error (set_kids h2 op [c]) b = nth_error h b).
  { intros b B. rewrite set_kids_neq by exact B. now apply set_label_neq. }
  assert (E3 : nth_error (set_kids h2 op [c]) op = Some {| lab := with_name (fmt s (name_of t)) l; kids := [c] |}).
  { rewrite (set_kids_eq _ _ _ _ E2). cbn [lab]. rewrite L. reflexivity. }
  exists (set_kids h2 op [c]). split; [|split; [exact G|split; [exact E3|]]].
  - unfold call. rewrite E, L, Ko. cbn [is_op with_name tmpl]. rewrite O, Tm, (get_name_ok _ _ _ Dc). reflexivity.
  - apply (denotes_node _ op _ [t] E3). cbn [kids]. constructor; [|constructor].
    apply (denotes_frame h _ op); [exact G|exact Dc|]. intros M.
    apply (complete_made_of _ _ _ _ _ Dc C M E); [|exact Ko]. rewrite L. exact O.
Qed.

Lemma args_ok : forall h env venv args ts, Forall2 (holds h) env venv -> arg_values venv args = Some ts ->
  exists ks, thread (fun (_ : unit) a => match get env a with Some v => Some (tt, v) | None => None end)
                    tt args = Some (tt, ks) /\ Forall2 (denotes h) ks ts /\ Forall complete ts.
Proof.
  intros h env venv args. induction args as [|a args IH]; intros ts H A.
  - injection A as <-. exists []. cbn [thread]. repeat split; constructor.
  - cbn [arg_values] in A. destruct (arg_value venv a) as [t|] eqn:Ea; [|discriminate].
    destruct (arg_values venv args) as [us|] eqn:Eu; [|discriminate]. injection A as <-.
    destruct (IH us H eq_refl) as (ks & T & F & C).
    assert (exists k, get env a = Some k /\ denotes h k t /\ complete t) as (k & G & D & Ct).
    { destruct a as [x|s]; cbn [arg_value get] in *.
      - destruct (nth_error venv x) as [v|] eqn:Ev; [|discriminate]. destruct v as [t'|]; [|discriminate].
        injection Ea as ->.
        clear - H Ev. revert x Ev. induction H as [|c v env venv Hc H IH]; intros x Ev; [now destruct x|].
        destruct x; cbn [nth_error] in *; [injection Ev as ->; exists c; split; [reflexivity|exact Hc]|auto].
      - injection Ea as <-. exists (Const s). repeat split; constructor. }
    exists (k :: ks). cbn [thread]. rewrite G, T. repeat split; constructor; auto.
Qed.

Lemma holds_nth : forall h env venv x v, Forall2 (holds h) env venv -> nth_error venv x = Some v ->
  exists c, nth_error env x = Some c /\ holds h c v.
Proof.
  intros h env venv x v H. revert x. induction H as [|c w env venv Hc H IH]; intros x E; [now destruct x|].
  destruct x; cbn [nth_error] in *; [injection E as ->; eauto|auto].
Qed.

(** Objects that have children are not written to. *)
Definition kept_used (h h' : heap) : Prop :=
  forall a o, nth_error h a = Some o -> exists o', nth_error h' a = Some o' /\ (kids o <> [] -> o' = o).
Lemma kept_kept_used : forall h h', kept h h' -> kept_used h h'.
Proof. intros h h' K a o E. exists o. split; [apply K; exact E|auto]. Qed.

Lemma call_first_holds : forall h op h' o n l c t l' e v, nth_error h op = Some o -> kids o = [] ->
  is_op l = true -> lab o = with_name n l -> named fmt l t = Some l' -> complete t ->
  (forall b, b <> op -> nth_error h' b = nth_error h b) ->
  nth_error h' op = Some {| lab := l'; kids := [c] |} -> denotes h' (Ref op) (Node l' [t]) ->
  holds h e v -> holds h' e v.
Proof.
  intros h op h' o n l c t l' e v E Ko O L N C G E' D' H.
  assert (Fr : forall e u, denotes h e u -> complete u -> denotes h' e u).
  { intros e' u D Cu. apply (denotes_frame h h' op); [exact G|exact D|]. intros M.
    apply (complete_made_of _ _ _ _ _ D Cu M E); [|exact Ko]. rewrite L. exact O. }
  destruct v as [u|l2]; cbn [holds] in *; [destruct H as [D Cu]; split; auto|].
  destruct H as (O2 & a & o2 & n2 & -> & E2 & L2 & S). split; [exact O2|].
  destruct (Nat.eq_dec a op) as [->|Na].
  - rewrite E in E2. injection E2 as <-.
    exists op, {| lab := l'; kids := [c] |}, (nm l'). split; [reflexivity|]. split; [exact E'|]. cbn [lab kids].
    split.
    + unfold named in N. destruct (tmpl l) as [s|] eqn:Tm; [|discriminate]. injection N as <-.
      rewrite L in L2. destruct l, l2. unfold with_name in *. cbn in *. congruence.
    + right. split; [discriminate|]. exists (Node l' [t]). split; [exact D'|].
      constructor; [discriminate|]. constructor; [exact C|constructor].
  - exists a, o2, n2. split; [reflexivity|]. split; [rewrite G by exact Na; exact E2|]. split; [exact L2|].
    destruct S as [S|(Sk & u & D & Cu)]; [now left|right]. split; [exact Sk|]. exists u. split; auto.
Qed.

Lemma step_ok : forall h env venv c v, Forall2 (holds h) env venv -> value_of fmt venv c = Some v ->
  exists h' r, step fmt (h, env) c = Some (h', env ++ [r]) /\ holds h' r v /\
    Forall2 (holds h') env venv /\ kept_used h h' /\
    (forall x op e, c = Pipe x op -> nth_error env op = Some e ->
       exists a o, e = Ref a /\ nth_error h' a = Some o /\ kids o <> []).
Proof.
  intros h env venv c v H V. destruct c as [l args|x op|x w]; [| |discriminate].
  - cbn [value_of] in V.
    assert (exists ks, thread (fun (_ : unit) a => match get env a with Some v => Some (tt, v) | None => None end)
                    tt args = Some (tt, ks) /\
              holds (h ++ [{| lab := l; kids := ks |}]) (Ref (List.length h)) v) as (ks & T & Hv).
    { destruct args as [|a args].
      - exists []. split; [reflexivity|]. injection V as <-. destruct (is_op l) eqn:O.
        + cbn [holds]. split; [exact O|]. exists (List.length h), {| lab := l; kids := [] |}, (nm l).
          split; [reflexivity|]. split; [apply alloc_nth|]. split; [now destruct l|now left].
        + cbn [holds]. split.
          * apply (denotes_node _ _ {| lab := l; kids := [] |} []); [apply alloc_nth|constructor].
          * constructor; [congruence|constructor].
      - destruct (arg_values venv (a :: args)) as [ts|] eqn:A; [|discriminate]. injection V as <-.
        destruct (args_ok h env venv _ _ H A) as (ks & T & F & C). exists ks. split; [exact T|].
        cbn [holds]. split.
        + apply (denotes_node _ _ {| lab := l; kids := ks |} ts); [apply alloc_nth|]. cbn [kids].
          eapply F2_impl; [|exact F]. intros k u. apply kept_denotes. apply kept_app.
        + constructor; [|exact C]. intros _ ->. cbn [arg_values] in A.
          destruct (arg_value venv a); [|discriminate]. destruct (arg_values venv args); discriminate. }
    exists (h ++ [{| lab := l; kids := ks |}]), (Ref (List.length h)).
    split; [cbn [step]; rewrite T; reflexivity|]. split; [exact Hv|].
    split; [eapply F2_impl; [|exact H]; intros e u; apply holds_kept; apply kept_app|].
    split; [apply kept_kept_used; apply kept_app|]. intros; discriminate.
  - cbn [value_of] in V.
    destruct (nth_error venv x) as [vx|] eqn:Ex; [|discriminate].
    destruct vx as [t|]; [|discriminate].
    destruct (holds_nth _ _ _ _ _ H Ex) as (c & Nc & Dc & Cc).
    destruct (nth_error venv op) as [vo|] eqn:Eo; [|discriminate].
    destruct (holds_nth _ _ _ _ _ H Eo) as (co & No & Ho).
    assert (Copy : forall l l' ts a, co = Ref a -> denotes h (Ref a) (Node l ts) -> ts <> [] ->
              is_op l = true -> named fmt l t = Some l' -> v = Metric (Node l' [t]) ->
              exists h' r, step fmt (h, env) (Pipe x op) = Some (h', env ++ [r]) /\ holds h' r v /\
                Forall2 (holds h') env venv /\ kept_used h h' /\
                (forall x' op' e, Pipe x op = Pipe x' op' -> nth_error env op' = Some e ->
                   exists a o, e = Ref a /\ nth_error h' a = Some o /\ kids o <> [])).
    { intros l l' ts a -> Da T O N ->.
      destruct (call_copy h a c l ts t l' Da T O Dc N) as (h' & a' & Ec & K & D' & La).
      exists h', (Ref a'). split; [cbn [step]; rewrite Nc, No, Ec; reflexivity|].
      split; [split; [exact D'|]; constructor; [discriminate|]; constructor; [exact Cc|constructor]|].
      split; [eapply F2_impl; [|exact H]; intros e u; apply holds_kept; exact K|].
      split; [apply kept_kept_used; exact K|].
      intros x' op' e X Ne. injection X as <- <-. rewrite No in Ne. injection Ne as <-.
      apply denotes_inv in Da as (o & us & E & F & X). injection X as -> ->.
      exists a, o. split; [reflexivity|]. split; [apply K; exact E|].
      intros Z. rewrite Z in F. inversion F; subst. congruence. }
    destruct vo as [to|l].
    + destruct to as [|l ts]; [discriminate|]. destruct (is_op l) eqn:O; [|discriminate].
      destruct (named fmt l t) as [l'|] eqn:N; [|discriminate]. injection V as <-.
      destruct Ho as [Do Co]. destruct co as [a|]; [|inversion Do].
      apply (Copy l l' ts a); auto. inversion Co; subst; auto.
    + destruct (named fmt l t) as [l'|] eqn:N; [|discriminate]. injection V as <-.
      destruct Ho as (O & a & o & n & -> & E & L & [S|(Sk & t0 & D0 & C0)]).
      * destruct (call_first h a c o n l t l' E S O L Dc Cc N) as (h' & Ec & G & E' & D').
        exists h', (Ref a). split; [cbn [step]; rewrite Nc, No, Ec; reflexivity|].
        split; [split; [exact D'|]; constructor; [discriminate|]; constructor; [exact Cc|constructor]|].
        split.
        { eapply F2_impl; [|exact H]. intros e u He.
          exact (call_first_holds h a h' o n l c t l' e u E S O L N Cc G E' D' He). }
        split.
        { intros b ob Eb. destruct (Nat.eq_dec b a) as [->|Nb].
          - rewrite E in Eb. injection Eb as <-. exists {| lab := l'; kids := [c] |}.
            split; [exact E'|congruence].
          - exists ob. rewrite G by exact Nb. auto. }
        intros x' op' e X Ne. injection X as <- <-. rewrite No in Ne. injection Ne as <-.
        exists a, {| lab := l'; kids := [c] |}. repeat split; [exact E'|discriminate].
      * assert (exists ts, t0 = Node (lab o) ts /\ ts <> []) as (ts & -> & Ts).
        { apply denotes_inv in D0 as (o' & us & E' & F & ->). rewrite E in E'. injection E' as <-.
          exists us. split; [reflexivity|]. intros ->. apply Sk. inversion F; auto. }
        apply (Copy (lab o) l' ts a); auto; rewrite L; [exact O|].
        unfold named in *. cbn [with_name tmpl]. exact N.
Qed.

Lemma kept_used_trans : forall h1 h2 h3, kept_used h1 h2 -> kept_used h2 h3 -> kept_used h1 h3.
Proof.
  intros h1 h2 h3 A B a o E. destruct (A a o E) as (o2 & E2 & U2). destruct (B a o2 E2) as (o3 & E3 & U3).
  exists o3. split; [exact E3|]. intros K. rewrite <- (U2 K). apply U3. now rewrite (U2 K).
Qed.

Lemma run_ok : forall p h env venv venv', Forall2 (holds h) env venv -> values fmt venv p = Some venv' ->
  exists h' rs, run fmt (h, env) p = Some (h', env ++ rs) /\ Forall2 (holds h') (env ++ rs) venv' /\
    kept_used h h' /\
    (forall x op e, In (Pipe x op) p -> nth_error (env ++ rs) op = Some e ->
       exists a o, e = Ref a /\ nth_error h' a = Some o /\ kids o <> []).
Proof.
  induction p as [|c p IH]; intros h env venv venv' H V; cbn [values run] in *.
  - injection V as <-. exists h, []. rewrite app_nil_r. split; [reflexivity|]. split; [exact H|].
    split; [apply kept_kept_used; apply kept_refl|]. intros x op e [].
  - destruct (value_of fmt venv c) as [v|] eqn:Ev; [|discriminate].
    destruct (step_ok h env venv c v H Ev) as (h1 & r & Es & Hr & He & K1 & U1). rewrite Es.
    assert (H1 : Forall2 (holds h1) (env ++ [r]) (venv ++ [v]))
      by (apply Forall2_app; [exact He|constructor; [exact Hr|constructor]]).
    destruct (IH h1 (env ++ [r]) (venv ++ [v]) venv' H1 V) as (h2 & rs & E2 & H2 & K2 & U2).
    exists h2, (r :: rs). change (env ++ r :: rs) with (env ++ [r] ++ rs). rewrite app_assoc.
    split; [exact E2|]. split; [exact H2|]. split; [eapply kept_used_trans; eauto|].
    intros x op e [->|I] Ne; [|eapply U2; eauto].
    assert (exists e', nth_error env op = Some e') as (e' & Ne').
    { cbn [step] in Es. destruct (nth_error env x); [|discriminate]. destruct (nth_error env op); [eauto|discriminate]. }
    destruct (U1 x op e' eq_refl Ne') as (a & o & -> & E & Ko).
    rewrite <- app_assoc, nth_error_app1 in Ne by (apply nth_error_Some; congruence).
    rewrite Ne' in Ne. injection Ne as <-.
    destruct (K2 a o E) as (o' & E' & W). exists a, o'. split; [reflexivity|]. split; [exact E'|].
    rewrite (W Ko). exact Ko.
Qed.

Lemma run_app : forall p q s, run fmt s (p ++ q) = match run fmt s p with Some s' => run fmt s' q | None => None end.
Proof.
  induction p as [|c p IH]; intros q s; cbn [app run]; [reflexivity|]. destruct (step fmt s c); [apply IH|reflexivity].
Qed.

End Values.
