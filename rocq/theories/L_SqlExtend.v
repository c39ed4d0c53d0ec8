(** Lemmas for C82. *)
From Coq Require Import List Bool String Ascii Arith NArith Lia.
From Verif Require Import M_SqlText L_SqlText M_SqlColumns L_SqlColumns M_SqlExtend S_SqlExtend.
Import ListNotations.
Open Scope string_scope.
Open Scope list_scope.

(** *** words *)
Lemma word_char_letters c : word_char c = true <-> In c letters.
Proof.
  assert (forall c, word_char c = if in_dec ascii_dec c letters then true else false) as H.
  { intros [[|] [|] [|] [|] [|] [|] [|] [|]]; vm_compute; reflexivity. }
  rewrite H. destruct (in_dec ascii_dec c letters); intuition discriminate.
Qed.
Definition piece_of (t : tok) : piece := match t with W w => Word (of_chars w) | P c => Other c end.
Lemma pieces_cut t : pieces t = List.map piece_of (cut (to_chars t)).
Proof.
  induction t as [|c t IH]; [reflexivity|]. unfold to_chars in *. cbn [pieces list_ascii_of_string cut].
  destruct (in_dec ascii_dec c letters) as [Hc|Hc].
  - apply word_char_letters in Hc. rewrite Hc, IH. destruct (cut (list_ascii_of_string t)) as [|[w|c'] r]; reflexivity.
  - assert (word_char c = false) as -> by (destruct (word_char c) eqn:E; [apply word_char_letters in E; contradiction|reflexivity]).
    rewrite IH. reflexivity.
Qed.
Definition wordy (w : chars) : Prop := w <> [] /\ forallb word_char w = true.
Lemma wordy_is w : is_word w <-> wordy (to_chars w).
Proof.
  unfold is_word, wordy, to_chars. rewrite forallb_forall. split; intros [H1 H2].
  - split; [destruct w; [congruence|discriminate]|]. intros c Hc. apply word_char_letters. auto.
  - split; [intros ->; now apply H1|]. intros c Hc. apply word_char_letters. auto.
Qed.
(** A list of tokens that is the cut of its text *)
Fixpoint normal (l : list tok) : Prop :=
  match l with
  | [] => True
  | W w :: r => wordy w /\ (match r with W _ :: _ => False | _ => True end) /\ normal r
  | P c :: r => word_char c = false /\ normal r
  end.
Lemma cut_normal l : normal (cut l).
Proof.
  induction l as [|c l IH]; [exact I|]. cbn [cut]. destruct (word_char c) eqn:E.
  - destruct (cut l) as [|[w|c'] r]; cbn [normal] in *.
    + split; [split; [discriminate|cbn; now rewrite E]|now split].
    + destruct IH as ((_ & Hw) & Hr & Hn). split; [split; [discriminate|cbn; now rewrite E]|now split].
    + split; [split; [discriminate|cbn; now rewrite E]|now split].
  - cbn [normal]. now split.
Qed.
Lemma cut_word w l : wordy w -> match cut l with W _ :: _ => False | _ => True end -> cut (w ++ l) = W w :: cut l.
Proof.
  intros [Hn Hw] Hl. induction w as [|c w IH]; [congruence|]. cbn [forallb] in Hw. apply andb_prop in Hw as [Hc Hw].
  cbn [app cut]. rewrite Hc. destruct w as [|c' w].
  - cbn [app]. destruct (cut l) as [|[]]; [reflexivity|contradiction|reflexivity].
  - rewrite IH by (discriminate || assumption). reflexivity.
Qed.
Lemma cut_paste l : normal l -> cut (paste l) = l.
Proof.
  induction l as [|[w|c] l IH]; cbn [normal]; [reflexivity| |].
  - intros (Hw & Hr & Hn). change (paste (W w :: l)) with (w ++ paste l). rewrite cut_word, IH; auto. rewrite IH by assumption. exact Hr.
  - intros (Hc & Hn). change (paste (P c :: l)) with (c :: paste l). cbn [cut]. now rewrite Hc, IH.
Qed.
Lemma paste_cut l : paste (cut l) = l.
Proof.
  induction l as [|c l IH]; [reflexivity|]. cbn [cut]. destruct (word_char c).
  - rewrite <- IH at 2. destruct (cut l) as [|[w|c'] r]; reflexivity.
  - change (paste (P c :: cut l)) with (c :: paste (cut l)). now rewrite IH.
Qed.
Lemma rename_normal old new l : wordy (to_chars new) -> normal l -> normal (List.map (rename_tok old new) l).
Proof.
  intros Hw. induction l as [|[w|c] l IH]; cbn [normal List.map rename_tok]; [auto| |].
  - intros (H1 & H2 & H3). destruct (String.eqb (of_chars w) old); cbn [normal]; (split; [assumption|]); (split; [|auto]);
      destruct l as [|[w'|c'] l']; cbn; auto; contradiction.
  - intros [H1 H2]. cbn [normal]. auto.
Qed.
Definition rename (old new : string) (p : piece) : piece := match p with Word w => if string_dec w old then Word new else Word w | Other c => Other c end.
Lemma pieces_sub old new t : is_word new -> pieces (sub_word old new t) = List.map (rename old new) (pieces t).
Proof.
  intros Hn. apply wordy_is in Hn. rewrite !pieces_cut. unfold sub_word. rewrite to_of_chars, cut_paste by (apply rename_normal; auto using cut_normal).
  rewrite !map_map. apply map_ext. intros [w|c]; cbn; [|reflexivity]. destruct (String.eqb_spec (of_chars w) old) as [->|Hne]; destruct (string_dec _ old); try congruence; cbn; now rewrite ?of_to_chars.
Qed.
Lemma pieces_inj t u : pieces t = pieces u -> t = u.
Proof.
  rewrite !pieces_cut. intros H. apply to_chars_inj. rewrite <- (paste_cut (to_chars t)), <- (paste_cut (to_chars u)). f_equal.
  revert H. generalize (cut (to_chars t)) (cut (to_chars u)). induction l as [|p l IH]; intros [|p' l']; try discriminate; [reflexivity|].
  cbn [List.map]. intros H. injection H as Hp Hl. f_equal; [|auto]. destruct p, p'; cbn in Hp; try discriminate; [|congruence].
  injection Hp as Hp. f_equal. rewrite <- (to_of_chars w), <- (to_of_chars w0). now rewrite Hp.
Qed.

(** *** the alias of add_suffix is a word *)
Lemma digit_word c : is_digit c = true -> word_char c = true.
Proof. intros H. unfold word_char. now rewrite H. Qed.
Lemma forallb_impl {A} (f g : A -> bool) l : (forall a, f a = true -> g a = true) -> forallb f l = true -> forallb g l = true.
Proof. intros H. rewrite !forallb_forall. auto. Qed.
Lemma suffix_word a : is_word a -> is_word (add_suffix a).
Proof.
  rewrite !wordy_is. unfold add_suffix. rewrite to_of_chars. intros [Hn Hw]. unfold add_suffix_chars.
  rewrite strip_id. 2:{ intros c Hc. rewrite forallb_forall in Hw. specialize (Hw c Hc). intros ->. discriminate. }
  destruct (split_suffix (to_chars a)) as [stem digits] eqn:E.
  assert (to_chars a = stem ++ digits) as Ea.
  { unfold split_suffix in E. destruct (span_digits (rev (to_chars a))) as [d r] eqn:Es. injection E as <- <-.
    apply span_digits_spec in Es as (Es & _). rewrite <- (rev_involutive (to_chars a)), Es, rev_app_distr. reflexivity. }
  destruct digits as [|c0 digits].
  - split; [intros H; apply app_eq_nil in H as [_ H]; discriminate|]. rewrite forallb_app, Hw. reflexivity.
  - destruct (N_of_str (c0 :: digits)); [|now split]. split.
    + intros H. apply app_eq_nil in H as [_ H]. now apply str_of_N_nonempty in H.
    + rewrite Ea, forallb_app in Hw. apply andb_prop in Hw as [Hw _]. rewrite forallb_app, Hw. cbn [andb].
      apply (forallb_impl is_digit); [exact digit_word|apply str_of_N_digits].
Qed.

(** *** one round *)
Definition as_map (d : clause) : dsources := as_tables d.
Lemma keys_as d : dkeys (as_tables d) = names d.
Proof. unfold dkeys, as_tables, names. now rewrite map_map. Qed.
Lemma as_app d d' : as_tables (d ++ d') = as_tables d ++ as_tables d'.
Proof. apply map_app. Qed.
Lemma as_in k u d : In (k, u) (as_tables d) -> exists t, u = TText t /\ In (k, t) d.
Proof. unfold as_tables. rewrite in_map_iff. intros ((k' & t) & E & Hi). injection E as <- <-. eauto. Qed.
Lemma as_lookup d a : dlookup (as_tables d) a = option_map TText (table_named a d).
Proof.
  induction d as [|[k t] d IH]; [reflexivity|]. cbn. destruct (String.eqb_spec k a); destruct (string_dec k a); try contradiction; [reflexivity|exact IH].
Qed.
Lemma add_word fuel h : forall d a t d' a', ds_add fuel h (as_tables d) a (TText t) = Ok (d', a') ->
  is_word a -> (forall k, In k (names d) -> is_word k) -> is_word a'.
Proof.
  induction fuel as [|fuel IH]; intros d a t d' a' E Ha Hk; [discriminate|]. cbn [ds_add table_str bind] in E. rewrite as_lookup in E.
  destruct (table_named a d) as [u|] eqn:El; cbn [option_map] in E.
  - cbn [table_str bind] in E. destruct (String.eqb t u).
    + injection E as _ <-. exact Ha.
    + apply IH in E; auto. now apply suffix_word.
  - destruct (find_text h (as_tables d) t) as [[k|]|] eqn:Ef; cbn [bind] in E; [| |discriminate].
    + injection E as _ <-. apply Hk. revert Ef. clear. induction d as [|[k' u] d IH]; [discriminate|]. cbn. destruct (String.eqb u t).
      * intros E. injection E as <-. now left.
      * intros E. right. auto.
    + injection E as _ <-. exact Ha.
Qed.
Lemma round (d : clause) a t : NoDup (names d) -> (forall k, In k (names d) -> is_word k) -> is_word a ->
  exists d' a', ds_add (List.length (as_tables d) + 2) no_heap (as_tables d) a (TText t) = Ok (as_tables d', a') /\
    is_word a' /\ NoDup (names d') /\ In (a', t) d' /\
    ((d' = d) \/ (d' = d ++ [(a', t)] /\ ~ In a' (names d) /\ (~ In a (names d) -> a' = a) /\ forall k, ~ In (k, t) d)).
Proof.
  intros HN HW Ha.
  destruct (ds_add_ok no_heap (as_tables d) (TText t) a (List.length (as_tables d) + 2)) as (d1 & a' & u & s & E & Es & El & Eu & HN' & HD).
  - now exists t.
  - now rewrite keys_as.
  - intros k u Hi. apply as_in in Hi as (t' & -> & _). now exists t'.
  - lia.
  - cbn in Es. injection Es as <-. pose proof (add_word _ _ _ _ _ _ _ E Ha HW) as Hw.
    destruct HD as [-> | (-> & Hn & Hs & Ht)].
    + exists d, a'. split; [exact E|]. split; [exact Hw|]. split; [exact HN|]. split; [|now left].
      apply dlookup_In, as_in in El as (t' & -> & Hi). cbn in Eu. now injection Eu as ->.
    + exists (d ++ [(a', t)]), a'. rewrite as_app. split; [exact E|]. split; [exact Hw|].
      split; [rewrite <- keys_as, as_app; exact HN'|]. split; [apply in_or_app; right; now left|]. right.
      rewrite keys_as in *. split; [reflexivity|]. split; [exact Hn|]. split; [exact Hs|]. intros k Hi.
      apply (Ht k (TText t)); [|reflexivity]. apply in_map_iff. now exists (k, t).
Qed.
(** *** the whole loop *)
Lemma run_shape n : forall d todo, NoDup (names d) -> (forall k, In k (names d) -> is_word k) -> (forall k, In k (names todo) -> is_word k) -> List.length todo = n ->
  exists added ns, extend_loop n (as_tables d) todo = Ok (as_tables (d ++ added), ns) /\ List.length ns = List.length todo /\ NoDup (names (d ++ added)) /\
    (forall k, In k (names (d ++ added)) -> is_word k).
Proof.
  induction n as [|n IH]; intros d todo HN HW HT Hl.
  - destruct todo; [|discriminate]. exists [], []. rewrite app_nil_r. auto.
  - destruct todo as [|[a t] todo]; [discriminate|]. injection Hl as Hl.
    destruct (round d a t HN HW) as (d' & a' & E & Hw & HN' & Hi & HD); [apply HT; now left|].
    cbn [extend_loop]. rewrite E. cbn [bind fst snd].
    set (todo' := if String.eqb a a' then todo else List.map (fun bt => (fst bt, sub_word a a' (snd bt))) todo).
    assert (names todo' = names todo) as En by (unfold todo'; destruct (String.eqb a a'); [reflexivity|]; unfold names; rewrite map_map; reflexivity).
    assert (List.length todo' = List.length todo) as El by (unfold todo'; destruct (String.eqb a a'); [reflexivity|apply map_length]).
    assert (forall k, In k (names d') -> is_word k) as HW'.
    { destruct HD as [-> | (-> & _)]; [exact HW|]. unfold names. rewrite map_app. intros k Hk. apply in_app_or in Hk as [Hk|[<-|[]]]; auto. }
    destruct (IH d' todo' HN' HW') as (added & ns & E' & Hn' & HN2 & HW2); [rewrite En; intros k Hk; apply HT; now right|congruence|].
    rewrite E'. cbn [bind fst snd]. destruct HD as [-> | (-> & _)].
    + exists added, (a' :: ns). split; [reflexivity|]. split; [cbn; congruence|auto].
    + exists ((a', t) :: added), (a' :: ns). rewrite <- app_assoc in *. split; [reflexivity|]. split; [cbn; congruence|auto].
Qed.

(** *** meanings *)
Lemma named_app {A} a (d d' : list (string * A)) : table_named a (d ++ d') = match table_named a d with Some v => Some v | None => table_named a d' end.
Proof. induction d as [|[k v] d IH]; [reflexivity|]. cbn. destruct (string_dec k a); auto. Qed.
Lemma named_none {A} a (d : list (string * A)) : table_named a d = None <-> ~ In a (List.map fst d).
Proof.
  induction d as [|[k v] d IH]; [cbn; tauto|]. cbn. destruct (string_dec k a) as [->|Hn]; [intuition discriminate|]. rewrite IH. intuition.
Qed.
Lemma meanings_snoc d a t : meanings (d ++ [(a, t)]) = meanings d ++ [(a, expand (meanings d) t)].
Proof. unfold meanings. now rewrite fold_left_app. Qed.
Lemma meanings_names d : List.map fst (meanings d) = names d.
Proof. induction d as [|[a t] d IH] using rev_ind; [reflexivity|]. rewrite meanings_snoc, map_app, IH. unfold names. now rewrite map_app. Qed.
Lemma meanings_prefix d d' a : In a (names d) -> table_named a (meanings (d ++ d')) = table_named a (meanings d).
Proof.
  intros Ha. induction d' as [|[b t] d' IH] using rev_ind; [now rewrite app_nil_r|]. rewrite app_assoc, meanings_snoc, named_app, IH.
  destruct (table_named a (meanings d)) eqn:E; [reflexivity|]. apply named_none in E. now rewrite meanings_names in E.
Qed.
Lemma expand_ext e1 e2 t : (forall w, mentions t w -> table_named w e1 = table_named w e2) -> expand e1 t = expand e2 t.
Proof.
  unfold mentions, expand. induction (pieces t) as [|p l IH]; intros H; [reflexivity|]. cbn [flat_map]. rewrite IH by (intros; apply H; now right).
  destruct p as [w|c]; [|reflexivity]. rewrite (H w) by now left. reflexivity.
Qed.
Definition backward (d : clause) : Prop := forall d1 a t d2 w, d = d1 ++ (a, t) :: d2 -> mentions t w -> ~ In w (a :: names d2).
(** In a WITH clause without forward references, every table means its text expanded with the whole clause *)
Lemma meaning_at d a t : NoDup (names d) -> backward d -> In (a, t) d -> table_named a (meanings d) = Some (expand (meanings d) t).
Proof.
  intros HN HB Hi. apply in_split in Hi as (d1 & d2 & ->).
  assert (~ In a (names d1)) as H1.
  { unfold names in *. rewrite map_app in HN. cbn [List.map] in HN. apply NoDup_remove_2 in HN. intros H. apply HN, in_or_app. now left. }
  replace (d1 ++ (a, t) :: d2) with ((d1 ++ [(a, t)]) ++ d2) by (rewrite <- app_assoc; reflexivity).
  rewrite meanings_prefix by (unfold names; rewrite map_app; apply in_or_app; right; now left).
  rewrite meanings_snoc, named_app. assert (table_named a (meanings d1) = None) as -> by (apply named_none; now rewrite meanings_names).
  cbn [table_named]. destruct (string_dec a a); [|congruence]. f_equal. apply expand_ext. intros w Hw.
  pose proof (HB d1 a t d2 w eq_refl Hw) as Hn.
  replace ((d1 ++ [(a, t)]) ++ d2) with (d1 ++ (a, t) :: d2) by (rewrite <- app_assoc; reflexivity).
  destruct (in_dec string_dec w (names d1)) as [Hd|Hd]; [symmetry; now apply meanings_prefix|].
  transitivity (@None (list meant)); [apply named_none; now rewrite meanings_names|]. symmetry. apply named_none. rewrite meanings_names. unfold names in *. rewrite map_app, in_app_iff.
  cbn [List.map fst]. tauto.
Qed.

Section Meaning.
  Variables self other : clause.
  Hypothesis HNo : NoDup (names other).
  Hypothesis HBo : backward other.
  Hypothesis C1 : forall b t w, In (b, t) other -> mentions t w -> In w (names self) -> In w (names other).
  Definition ren (rho : list (string * string)) (p : piece) : piece :=
    match p with Word w => match table_named w rho with Some n => Word n | None => Word w end | Other c => Other c end.
  Definition cond2 (rho : list (string * string)) : Prop :=
    forall a n, In (a, n) rho -> a <> n -> ~ In n (names other) /\ forall b t, In (b, t) other -> ~ mentions t n.
  Definition cond3 (rho : list (string * string)) : Prop :=
    forall a n, In (a, n) rho -> ~ In n (names self) -> forall b t, In (b, t) self -> ~ mentions t n.
  Record inv (d done : clause) (rho : list (string * string)) : Prop := Inv {
    i_names : List.map fst rho = names done;
    i_mean : forall a n, In (a, n) rho -> In n (names d) /\ table_named n (meanings d) = table_named a (meanings done);
    i_keys : forall k, In k (names d) -> In k (names self) \/ In k (List.map snd rho);
    i_back : backward d;
    i_self : forall k, In k (names self) -> In k (names d);
    i_text : forall k t, In (k, t) d -> In (k, t) self \/ forall w, mentions t w -> In w (List.map snd rho) \/ exists b t0, In (b, t0) done /\ mentions t0 w }.
  Definition as_renamed (rho : list (string * string)) (o t : string * string) : Prop := fst t = fst o /\ pieces (snd t) = List.map (ren rho) (pieces (snd o)).

  Lemma named_some {A} a (d : list (string * A)) v : table_named a d = Some v -> In (a, v) d.
  Proof. induction d as [|[k u] d IH]; [discriminate|]. cbn. destruct (string_dec k a) as [->|]; [intros E; injection E as ->; now left|auto]. Qed.
  Lemma before_other done a t0 rest : other = done ++ (a, t0) :: rest ->
    In (a, t0) other /\ ~ In a (names done) /\ (forall b, In b (names done) -> b <> a) /\ In a (names other) /\ (forall w, mentions t0 w -> w <> a /\ ~ In w (names rest)) /\
    (forall b t, In (b, t) done -> In (b, t) other /\ ~ mentions t a).
  Proof.
    intros E. assert (In (a, t0) other) as H1 by (rewrite E; apply in_or_app; right; now left).
    assert (~ In a (names done)) as H2.
    { rewrite E in HNo. unfold names in *. rewrite map_app in HNo. cbn [List.map] in HNo. apply NoDup_remove_2 in HNo. intros H. apply HNo, in_or_app. now left. }
    split; [exact H1|]. split; [exact H2|]. split; [intros b Hb ->; contradiction|]. split; [apply (in_map fst _ _ H1)|]. split.
    - intros w Hw. pose proof (HBo done a t0 rest w E Hw) as H. split; [intros ->; apply H; now left|intros Hr; apply H; now right].
    - intros b t Hi. split; [rewrite E; apply in_or_app; now left|]. intros Hm. apply in_split in Hi as (d1 & d2 & ->).
      apply (HBo d1 b t (d2 ++ (a, t0) :: rest) a); [rewrite E, <- app_assoc; reflexivity|exact Hm|]. right. unfold names. rewrite map_app, in_app_iff. right. now left.
  Qed.
  Lemma ren_words rho t t0 w : pieces t = List.map (ren rho) (pieces t0) -> mentions t w -> In w (List.map snd rho) \/ mentions t0 w.
  Proof.
    unfold mentions. intros -> H. apply in_map_iff in H as ([w0|c] & E & Hi); cbn in E; [|discriminate].
    destruct (table_named w0 rho) as [n|] eqn:En.
    - injection E as ->. left. apply named_some in En. apply (in_map snd) in En. exact En.
    - injection E as ->. now right.
  Qed.

  Lemma expand_renamed d done rho a t0 rest t : other = done ++ (a, t0) :: rest -> inv d done rho -> cond2 rho ->
    pieces t = List.map (ren rho) (pieces t0) -> expand (meanings d) t = expand (meanings done) t0.
  Proof.
    intros E HI H2 Ht. destruct (before_other done a t0 rest E) as (B1 & B2 & B3 & B4 & B5 & B6).
    unfold expand. rewrite Ht. clear Ht. assert (forall w, In (Word w) (pieces t0) -> mentions t0 w) as HM by auto. revert HM.
    induction (pieces t0) as [|p l IH]; intros HM; [reflexivity|]. cbn [List.map flat_map]. rewrite IH by (intros; apply HM; now right). f_equal.
    destruct p as [w|c]; [|reflexivity]. cbn [ren]. destruct (table_named w rho) as [n|] eqn:En.
    - apply named_some in En. destruct (i_mean _ _ _ HI _ _ En) as [Hn Hm]. rewrite Hm.
      destruct (table_named w (meanings done)) eqn:Ew; [reflexivity|]. apply named_none in Ew. rewrite meanings_names, <- (i_names _ _ _ HI) in Ew.
      exfalso. apply Ew. apply (in_map fst) in En. exact En.
    - apply named_none in En. rewrite (i_names _ _ _ HI) in En.
      assert (table_named w (meanings done) = None) as -> by (apply named_none; now rewrite meanings_names).
      assert (table_named w (meanings d) = None) as ->; [|reflexivity]. apply named_none. rewrite meanings_names. intros Hw.
      assert (mentions t0 w) as Hmw by (apply HM; now left). destruct (B5 w Hmw) as [Hwa Hwr].
      apply (i_keys _ _ _ HI) in Hw as [Hw|Hw].
      + pose proof (C1 _ _ _ B1 Hmw Hw) as Ho. rewrite E in Ho. unfold names in Ho, En, Hwr. rewrite map_app in Ho. apply in_app_or in Ho as [Ho|[Ho|Ho]]; [contradiction|cbn in Ho; congruence|contradiction].
      + apply in_map_iff in Hw as ([b n] & En' & Hi). cbn in En'. subst n. destruct (string_dec b w) as [->|Hne].
        * apply En. rewrite <- (i_names _ _ _ HI). apply (in_map fst) in Hi. exact Hi.
        * destruct (H2 b w Hi Hne) as [_ H]. exact (H _ _ B1 Hmw).
  Qed.
  Lemma inv_step d done rho a t0 rest t n d' : other = done ++ (a, t0) :: rest -> inv d done rho -> cond2 (rho ++ [(a, n)]) -> cond3 (rho ++ [(a, n)]) ->
    pieces t = List.map (ren rho) (pieces t0) -> NoDup (names d') -> In (n, t) d' ->
    ((d' = d) \/ (d' = d ++ [(n, t)] /\ ~ In n (names d))) -> inv d' (done ++ [(a, t0)]) (rho ++ [(a, n)]).
  Proof.
    intros E HI H2 H3 Ht HN' Hin HD. destruct (before_other done a t0 rest E) as (B1 & B2 & B3 & B4 & B5 & B6).
    assert (cond2 rho) as H2' by (intros b m Hb; apply H2, in_or_app; now left).
    pose proof (expand_renamed d done rho a t0 rest t E HI H2' Ht) as HE.
    assert (In (a, n) (rho ++ [(a, n)])) as Hlast by (apply in_or_app; right; now left).
    assert (forall x, In x (List.map snd rho) -> In x (names d)) as Hrho.
    { intros x Hx. apply in_map_iff in Hx as ([b m] & Eb & Hb). cbn in Eb. subst m. exact (proj1 (i_mean _ _ _ HI _ _ Hb)). }
    assert (~ In n (names d) -> forall w, mentions t w -> w <> n) as HT.
    { intros Hn w Hw ->. destruct (ren_words rho t t0 n Ht Hw) as [Hx|Hx]; [auto|]. destruct (string_dec a n) as [<-|Hne].
      - destruct (B5 a Hx); congruence.
      - destruct (H2 a n Hlast Hne) as [_ H]. exact (H _ _ B1 Hx). }
    assert (backward d') as HB'.
    { destruct HD as [-> | (-> & Hn)]; [apply (i_back _ _ _ HI)|]. intros d1 k u d2 w Ed Hw.
      assert ((k, u) :: d2 <> []) as Hne0 by discriminate. destruct (exists_last Hne0) as (l & [k' u'] & El). clear Hne0. rewrite El, app_assoc in Ed. apply app_inj_tail in Ed as [Ed Ek]. injection Ek as <- <-.
      destruct l as [|x l].
      - cbn in El. injection El as -> -> ->. intros [<-|[]]. exact (HT Hn _ Hw eq_refl).
      - cbn in El. injection El as <- ->. pose proof (i_back _ _ _ HI d1 k u l w Ed Hw) as Hb. unfold names in *. rewrite map_app. cbn [List.map fst].
        intros Hi. assert (In w (k :: List.map fst l) \/ w = n) as [Hi'|Hi'].
        { destruct Hi as [Hi|Hi]; [left; now left|]. apply in_app_or in Hi as [Hi|[Hi|[]]]; [left; now right|right; congruence]. }
        + contradiction.
        + subst w. assert (In (k, u) d) as Hk by (rewrite Ed; apply in_or_app; right; now left).
          destruct (i_text _ _ _ HI k u Hk) as [Hs|Hs].
          * apply (H3 a n Hlast) with (b := k) (t := u); auto. intros Hns. apply Hn, (i_self _ _ _ HI), Hns.
          * destruct (Hs n Hw) as [Hx|(b & t1 & Hb1 & Hm)]; [exact (Hn (Hrho n Hx))|]. destruct (B6 b t1 Hb1) as [Ho Hma]. destruct (string_dec a n) as [<-|Hne]; [contradiction|].
            destruct (H2 a n Hlast Hne) as [_ H]. exact (H _ _ Ho Hm). }
    assert (forall k, In k (names d) -> In k (names d')) as Hsub by (destruct HD as [-> | (-> & _)]; [auto|]; unfold names; rewrite map_app; intros; apply in_or_app; now left).
    assert (forall k, In k (names d) -> table_named k (meanings d') = table_named k (meanings d)) as Hpre by (destruct HD as [-> | (-> & _)]; [auto|]; intros; now apply meanings_prefix).
    split.
    - rewrite map_app, (i_names _ _ _ HI). unfold names. now rewrite map_app.
    - intros b m Hb. apply in_app_or in Hb as [Hb|[Hb|[]]].
      + destruct (i_mean _ _ _ HI b m Hb) as [Hm Hv]. split; [auto|]. rewrite Hpre, Hv by assumption. symmetry. apply meanings_prefix.
        rewrite <- (i_names _ _ _ HI). apply (in_map fst) in Hb. exact Hb.
      + injection Hb as <- <-. split; [apply (in_map fst) in Hin; exact Hin|]. rewrite (meaning_at d' n t HN' HB' Hin), meanings_snoc, named_app.
        assert (table_named a (meanings done) = None) as -> by (apply named_none; now rewrite meanings_names). cbn [table_named].
        destruct (string_dec a a); [|congruence]. f_equal. rewrite <- HE. destruct HD as [-> | (-> & Hn)]; [reflexivity|]. apply expand_ext. intros w Hw.
        rewrite meanings_snoc, named_app. destruct (table_named w (meanings d)) eqn:Ew; [reflexivity|]. cbn [table_named]. destruct (string_dec n w) as [<-|]; [|reflexivity].
        exfalso. exact (HT Hn _ Hw eq_refl).
    - intros k Hk. rewrite map_app, in_app_iff. destruct HD as [-> | (-> & _)].
      + apply (i_keys _ _ _ HI) in Hk. tauto.
      + unfold names in Hk. rewrite map_app, in_app_iff in Hk. destruct Hk as [Hk|[<-|[]]]; [apply (i_keys _ _ _ HI) in Hk; tauto|right; right; now left].
    - exact HB'.
    - intros k Hk. apply Hsub, (i_self _ _ _ HI), Hk.
    - intros k u Hk. assert (In (k, u) d \/ u = t) as [Hd|Hu].
      { destruct HD as [-> | (-> & _)]; [now left|]. apply in_app_or in Hk as [Hk|[Hk|[]]]; [now left|right; congruence]. }
      + destruct (i_text _ _ _ HI k u Hd) as [Hs|Hs]; [now left|]. right. intros w Hw. rewrite map_app, in_app_iff.
        destruct (Hs w Hw) as [Hx|(b & t1 & Hb & Hm)]; [now left; left|]. right. exists b, t1. split; [apply in_or_app; now left|exact Hm].
      + subst u. right. intros w Hw. rewrite map_app, in_app_iff. destruct (ren_words rho t t0 w Ht Hw) as [Hx|Hx]; [now left; left|].
        right. exists a, t0. split; [apply in_or_app; right; now left|exact Hx].
  Qed.
  Lemma todo_step done rho a t0 rest n todo : other = done ++ (a, t0) :: rest -> List.map fst rho = names done -> cond2 rho -> is_word n ->
    Forall2 (as_renamed rho) rest todo ->
    Forall2 (as_renamed (rho ++ [(a, n)])) rest (if String.eqb a n then todo else List.map (fun bt => (fst bt, sub_word a n (snd bt))) todo).
  Proof.
    intros E Hr H2 Hn HF. destruct (before_other done a t0 rest E) as (B1 & B2 & B3 & B4 & B5 & B6).
    assert (table_named a rho = None) as Ha by (apply named_none; now rewrite Hr). clear E B5.
    destruct (String.eqb_spec a n) as [<-|Hne].
    - induction HF as [|o t ro rt [H1 H3] HF IH]; [constructor|]. constructor; [|exact IH]. split; [exact H1|]. rewrite H3. apply map_ext. intros [w|c]; [|reflexivity].
      cbn [ren]. rewrite named_app. destruct (table_named w rho) eqn:Ew; [reflexivity|]. cbn [table_named]. destruct (string_dec a w); congruence.
    - induction HF as [|o t ro rt [H1 H3] HF IH]; [constructor|]. cbn [List.map]. constructor; [|exact IH]. split; [exact H1|]. cbn [snd]. rewrite pieces_sub, H3, map_map by exact Hn.
      apply map_ext. intros [w|c]; [|reflexivity]. cbn [ren]. rewrite named_app. destruct (table_named w rho) as [m|] eqn:Ew; cbn [rename].
      + apply named_some in Ew. destruct (string_dec m a) as [->|]; [|reflexivity]. exfalso. destruct (string_dec w a) as [->|Hwa].
        * apply named_none in Ha. apply Ha. apply (in_map fst) in Ew. exact Ew.
        * destruct (H2 w a Ew Hwa) as [H _]. contradiction.
      + cbn [table_named]. destruct (string_dec w a); destruct (string_dec a w); congruence.
  Qed.
  Lemma run_meaning k : forall d done rho rest todo d' ns, other = done ++ rest -> List.length rest = k -> inv d done rho -> NoDup (names d) -> (forall x, In x (names d) -> is_word x) ->
    (forall x, In x (names rest) -> is_word x) -> Forall2 (as_renamed rho) rest todo -> extend_loop k (as_tables d) todo = Ok (as_tables d', ns) ->
    cond2 (rho ++ combine (names rest) ns) -> cond3 (rho ++ combine (names rest) ns) -> exists dd, as_tables dd = as_tables d' /\ inv dd other (rho ++ combine (names rest) ns).
  Proof.
    induction k as [|k IH]; intros d done rho rest todo d' ns E Hl HI HN HW HR HF HL H2 H3.
    - destruct rest; [|discriminate]. cbn in HL. injection HL as HL _. exists d. split; [exact HL|]. cbn. rewrite !app_nil_r in *. now rewrite E.
    - destruct rest as [|[a t0] rest]; [discriminate|]. injection Hl as Hl. inversion HF as [|o [a1 t] ro todo1 [HA HP] HF1]; subst o ro todo. cbn in HA, HP. subst a1.
      destruct (round d a t HN HW) as (d1 & n & Er & Hw & HN1 & Hin & HD); [apply HR; now left|].
      cbn [extend_loop] in HL. rewrite Er in HL. cbn [bind fst snd] in HL.
      destruct (extend_loop k (as_tables d1) _) as [[d2 ns2]|] eqn:EL in HL; [|discriminate]. cbn [bind fst snd] in HL. injection HL as HL <-. subst d2.
      cbn [names List.map fst combine] in H2, H3 |- *. change (List.map fst rest) with (names rest) in *.
      replace (rho ++ (a, n) :: combine (names rest) ns2) with ((rho ++ [(a, n)]) ++ combine (names rest) ns2) in * by (rewrite <- app_assoc; reflexivity).
      assert (cond2 (rho ++ [(a, n)])) as H2' by (intros b m Hb; apply H2, in_or_app; now left).
      assert (cond3 (rho ++ [(a, n)])) as H3' by (intros b m Hb; apply H3 with (a := b), in_or_app; now left).
      apply (IH d1 (done ++ [(a, t0)]) (rho ++ [(a, n)]) rest (if String.eqb a n then todo1 else List.map (fun bt => (fst bt, sub_word a n (snd bt))) todo1) d' ns2); auto.
      + rewrite <- app_assoc. exact E.
      + apply (inv_step d done rho a t0 rest t n d1); auto. tauto.
      + destruct HD as [-> | (-> & _)]; [exact HW|]. unfold names. rewrite map_app. intros x Hx. apply in_app_or in Hx as [Hx|[<-|[]]]; auto.
      + intros x Hx. apply HR. now right.
      + apply (todo_step done rho a t0 rest n todo1 E (i_names _ _ _ HI)); auto. intros b m Hb; apply H2', in_or_app; now left.
  Qed.
End Meaning.

Lemma as_tables_inj d d' : as_tables d = as_tables d' -> d = d'.
Proof.
  revert d'. induction d as [|[k t] d IH]; intros [|[k' t'] d']; try discriminate; [reflexivity|]. cbn. intros H. injection H as -> -> H. f_equal. now apply IH.
Qed.
Lemma renamed_nil l : Forall2 (as_renamed []) l l.
Proof.
  induction l as [|o l IH]; constructor; [|exact IH]. split; [reflexivity|]. rewrite <- (map_id (pieces (snd o))) at 1. apply map_ext. intros [w|c]; reflexivity.
Qed.
Lemma extend_means self other d ns : well_named self -> well_named other ->
  (forall b t w, In (b, t) other -> mentions t w -> In w (names self) -> In w (names other)) ->
  ds_extend (as_tables self) other = Ok (as_tables d, ns) ->
  (forall a n, In (a, n) (combine (names other) ns) -> a <> n -> ~ In n (names other) /\ forall b t, In (b, t) other -> ~ mentions t n) ->
  (forall a n, In (a, n) (combine (names other) ns) -> ~ In n (names self) -> forall b t, In (b, t) self -> ~ mentions t n) ->
  forall a n, In (a, n) (combine (names other) ns) -> table_named a (meanings other) <> None /\ table_named n (meanings d) = table_named a (meanings other).
Proof.
  intros (HN1 & HW1 & HB1) (HN2 & HW2 & HB2) C1 E H2 H3 a n Hi.
  assert (inv self self [] []) as HI by (split; cbn; auto; try (intros; contradiction)).
  destruct (run_meaning self other HN2 HB2 C1 (List.length other) self [] [] other other d ns eq_refl eq_refl HI HN1 HW1 HW2 (renamed_nil other) E H2 H3) as (dd & Ed & HI').
  apply as_tables_inj in Ed. subst dd. cbn [app] in HI'. destruct (i_mean _ _ _ _ HI' a n Hi) as [_ Hm]. split; [|exact Hm].
  intros Hn. apply named_none in Hn. rewrite meanings_names in Hn. apply Hn. now apply in_combine_l in Hi.
Qed.

(** *** nothing to rename *)
Lemma nodup_left {A} (l l' : list A) : NoDup (l ++ l') -> NoDup l.
Proof. induction l as [|a l IH]; cbn; intros H; [constructor|]. inversion H; subst. constructor; [|auto]. intros Hi. apply H2, in_or_app. now left. Qed.
Lemma into_rest k : forall done rest, List.length rest = k -> NoDup (names (done ++ rest)) -> NoDup (List.map snd (done ++ rest)) -> (forall a, In a (names (done ++ rest)) -> is_word a) ->
  extend_loop k (as_tables done) rest = Ok (as_tables (done ++ rest), names rest).
Proof.
  induction k as [|k IH]; intros done rest Hl HN HT HW.
  - destruct rest; [|discriminate]. now rewrite app_nil_r.
  - destruct rest as [|[a t] rest]; [discriminate|]. injection Hl as Hl.
    assert (~ In a (names done)) as Ha.
    { unfold names in *. rewrite map_app in HN. cbn [List.map] in HN. apply NoDup_remove_2 in HN. intros H. apply HN, in_or_app. now left. }
    assert (~ In t (List.map snd done)) as Ht.
    { rewrite map_app in HT. cbn [List.map] in HT. apply NoDup_remove_2 in HT. intros H. apply HT, in_or_app. now left. }
    assert (NoDup (names done)) as HN1 by (unfold names in *; rewrite map_app in HN; now apply nodup_left in HN).
    destruct (round done a t HN1) as (d1 & n & Er & _ & _ & Hin & HD).
    + intros x Hx. apply HW. unfold names in *. rewrite map_app. apply in_or_app. now left.
    + apply HW. unfold names. rewrite map_app. apply in_or_app. right. now left.
    + destruct HD as [-> | (-> & _ & Hs & _)]; [exfalso; apply Ht; apply (in_map snd) in Hin; exact Hin|]. specialize (Hs Ha). subst n.
      cbn [extend_loop]. rewrite Er. cbn [bind fst snd]. rewrite String.eqb_refl.
      rewrite IH; [|exact Hl| | |]; rewrite <- app_assoc; cbn [app]; auto.
Qed.
Lemma nest_nothing inner text : well_named inner -> NoDup (List.map snd inner) ->
  exists a d, nest [] inner text = Ok (a, as_tables d) /\ table_named a (meanings d) = Some (expand (meanings inner) text) /\
    forall k, In k (names inner) -> table_named k (meanings d) = table_named k (meanings inner).
Proof.
  intros (HN & HW & HB) HT. unfold nest.
  assert (is_word "NoNameTable") as Hw by (apply wordy_is; split; [discriminate|reflexivity]).
  destruct (round inner "NoNameTable" text HN HW Hw) as (d1 & n & Er & Hwn & HN1 & Hin & HD).
  unfold as_tables in Er at 1. rewrite map_length in Er. rewrite Er. cbn [bind fst snd].
  assert (List.map (fun at_ => (fst at_, match snd at_ with TText s => s | TSql _ => "" end)) (as_tables d1) = d1) as ->.
  { unfold as_tables. rewrite map_map. rewrite <- (map_id d1) at 2. apply map_ext. now intros []. }
  assert (ds_extend [] d1 = Ok (as_tables d1, names d1)) as ->.
  { apply (into_rest (List.length d1) [] d1 eq_refl HN1).
    - destruct HD as [-> | (-> & _ & _ & Hx)]; [exact HT|]. cbn [app]. rewrite map_app. cbn [List.map snd]. apply NoDup_snoc; [exact HT|].
      intros H. apply in_map_iff in H as ([k u] & Eu & Hi). cbn in Eu. subst u. exact (Hx k Hi).
    - cbn [app]. intros a Ha. destruct HD as [-> | (-> & _)]; [auto|]. unfold names in Ha. rewrite map_app in Ha. apply in_app_or in Ha as [Ha|[<-|[]]]; auto. }
  cbn [bind fst]. exists n, d1. split; [reflexivity|]. destruct HD as [-> | (-> & Hn & _)].
  - split; [now apply meaning_at|reflexivity].
  - rewrite meanings_snoc, named_app. assert (table_named n (meanings inner) = None) as -> by (apply named_none; now rewrite meanings_names).
    cbn [table_named]. destruct (string_dec n n); [|congruence]. split; [reflexivity|]. intros k Hk. rewrite <- meanings_snoc. now apply meanings_prefix.
Qed.
