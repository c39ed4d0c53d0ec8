(** Deep copies. *)
From Coq Require Import List String Bool Arith Lia.
Import ListNotations.
From Verif Require Import M_Objects S_Objects L_Objects1.

(** [c] denotes [t] in objects that are at or above [n0] and not among [B]. *)
Definition apart (n0 : nat) (B : list nat) (h : heap) (c : child) (t : tree) : Prop :=
  denotes h c t /\ forall b, made_of h c b -> n0 <= b /\ ~ In b B.

Definition ready (h0 : heap) (A B : list nat) (h : heap) (memo : list (nat * nat)) : Prop :=
  kept h0 h /\ (forall b, In b B -> b < List.length h) /\
  forall b b', seen memo b = Some b' -> In b A \/
    forall t, denotes h0 (Ref b) t -> apart (List.length h0) B h (Ref b') t.

Lemma apart_kept : forall n0 B h h' c t, kept h h' -> apart n0 B h c t -> apart n0 B h' c t.
Proof.
  intros n0 B h h' c t K [D M]. split; [eapply kept_denotes; eauto|].
  intros b H. apply M. eapply kept_made_of; eauto.
Qed.
Lemma apart_update : forall n0 B h a ks c t, apart n0 (a :: B) h c t -> apart n0 B (set_kids h a ks) c t.
Proof.
  intros n0 B h a ks c t [D M].
  assert (G : forall b, made_of h c b -> nth_error (set_kids h a ks) b = nth_error h b).
  { intros b H. apply set_kids_neq. intros ->. apply (M a H). now left. }
  split; [eapply denotes_agree; eauto|]. intros b H.
  pose proof (made_of_agree _ _ _ _ H _ D G) as H'. destruct (M b H') as [L N].
  split; [exact L|]. intros I. apply N. now right.
Qed.

Lemma dcopy_ok : forall h0 t n c h memo A B,
  height t <= n -> denotes h0 c t -> ready h0 A B h memo ->
  (forall b t', In b A -> denotes h0 (Ref b) t' -> height t < height t') ->
  exists h' memo' c', dcopy n (h, memo) c = Some ((h', memo'), c') /\ kept h h' /\
    ready h0 A B h' memo' /\ apart (List.length h0) B h' c' t /\
    (forall b b', seen memo b = Some b' -> seen memo' b = Some b').
Proof.
  intros h0 t. induction t as [s|l ts IH] using tree_ind2; intros n c h memo A B Hn D R HA.
  - inversion D; subst. exists h, memo, (Const s).
    split; [destruct n; reflexivity|]. split; [apply kept_refl|]. split; [exact R|].
    split; [|auto]. split; [constructor|]. intros b M. inversion M.
  - destruct c as [a|]; [|inversion D].
    destruct (seen memo a) as [a'|] eqn:S.
    + exists h, memo, (Ref a').
      split; [destruct n; cbn [dcopy snd]; rewrite S; reflexivity|]. split; [apply kept_refl|].
      split; [exact R|]. split; [|auto].
      destruct (proj2 (proj2 R) a a' S) as [I|Q]; [pose proof (HA a _ I D); lia|]. apply Q; exact D.
    + pose proof D as D0. apply denotes_inv in D as (o & us & E & F & X). injection X as -> ->.
      destruct n as [|n]; [cbn [height] in Hn; lia|].
      destruct R as (K & RB & RM). pose proof (K a o E) as Eh.
      set (h1 := (h ++ [{| lab := lab o; kids := [] |}]) : heap). set (a' := List.length h).
      assert (R1 : ready h0 (a :: A) (a' :: B) h1 ((a, a') :: memo)).
      { split; [eapply kept_trans; [exact K|apply kept_app]|]. split.
        - intros b [<-|I]; unfold h1; rewrite app_length; cbn [List.length]; [unfold a'; lia|].
          pose proof (RB b I). lia.
        - intros b b' S'. cbn [seen] in S'. destruct (Nat.eqb_spec b a) as [->|N]; [left; now left|].
          destruct (RM b b' S') as [I|Q]; [left; now right|right].
          intros t Dt. destruct (Q t Dt) as [Q1 Q2]. split.
          + eapply kept_denotes; [apply kept_app|exact Q1].
          + intros x M. assert (M' : made_of h (Ref b') x) by (eapply kept_made_of; [apply kept_app|exact Q1|exact M]).
            destruct (Q2 x M') as [Q3 Q4]. split; [exact Q3|]. intros [<-|I]; [|now apply Q4].
            pose proof (made_of_lt _ _ _ _ M' Q1). unfold a' in *. lia. }
      assert (Hk : Forall (fun u => height u <= n) us).
      { rewrite Forall_forall. intros u U. cbn [height] in Hn. pose proof (height_In _ _ U). lia. }
      assert (HA' : forall u, In u us -> forall b t', In b (a :: A) -> denotes h0 (Ref b) t' -> height u < height t').
      { intros u U b t' [<-|I] Dt.
        - pose proof (denotes_fun _ _ _ _ D0 Dt) as ->. cbn [height]. pose proof (height_In _ _ U). lia.
        - pose proof (HA b t' I Dt) as L. cbn [height] in L. pose proof (height_In _ _ U). lia. }
      assert (T : exists h2 memo2 ks, thread (dcopy n) (h1, (a, a') :: memo) (kids o) = Some ((h2, memo2), ks) /\
                    kept h1 h2 /\ ready h0 (a :: A) (a' :: B) h2 memo2 /\
                    Forall2 (apart (List.length h0) (a' :: B) h2) ks us /\
                    (forall b b', seen ((a, a') :: memo) b = Some b' -> seen memo2 b = Some b')).
      { clearbody h1. clear D0 E Eh Hn K RB RM HA. revert h1 R1.
        generalize ((a, a') :: memo) as mm. clear S.
        induction F as [|k u ks us Dk F I]; intros mm h1 R1.
        - exists h1, mm, []. cbn [thread]. split; [reflexivity|]. split; [apply kept_refl|].
          split; [exact R1|]. split; [constructor|auto].
        - inversion IH as [|? ? IHu IHus]; subst. inversion Hk; subst.
          destruct (IHu n k h1 mm (a :: A) (a' :: B) H1 Dk R1 (HA' u (or_introl eq_refl)))
            as (h2 & m2 & k' & E1 & K1 & R2 & P1 & S1).
          destruct (I IHus H2 (fun u U => HA' u (or_intror U)) m2 h2 R2) as (h3 & m3 & ks' & E2 & K2 & R3 & P2 & S2).
          exists h3, m3, (k' :: ks'). cbn [thread]. rewrite E1, E2.
          split; [reflexivity|]. split; [eapply kept_trans; eauto|]. split; [exact R3|].
          split; [constructor; [eapply apart_kept; eauto|exact P2]|auto]. }
      destruct T as (h2 & memo2 & ks & ET & K2 & R2 & P2 & S2).
      assert (E2 : nth_error h2 a' = Some {| lab := lab o; kids := [] |})
        by (apply K2; apply alloc_nth).
      set (h3 := set_kids h2 a' ks).
      assert (E3 : nth_error h3 a' = Some {| lab := lab o; kids := ks |})
        by (exact (set_kids_eq _ _ _ _ E2)).
      assert (P3 : Forall2 (apart (List.length h0) B h3) ks us)
        by (eapply F2_impl; [|exact P2]; intros x y Q; now apply apart_update).
      assert (La : List.length h0 <= a') by (apply kept_length; exact K).
      assert (PA : apart (List.length h0) B h3 (Ref a') (Node (lab o) us)).
      { split.
        - apply (denotes_node h3 a' _ us E3). cbn [kids]. eapply F2_impl; [|exact P3].
          intros x y [Q _]. exact Q.
        - intros b M. inversion M as [|x o' k y E' Kin M']; subst.
          + split; [exact La|]. intros I. pose proof (RB _ I). unfold a' in *. lia.
          + rewrite E3 in E'. injection E' as <-. cbn [kids] in Kin.
            destruct (F2_left _ _ _ _ P3 Kin) as (u & _ & [_ Q]). now apply Q. }
      exists h3, memo2, (Ref a').
      split; [cbn [dcopy snd fst]; rewrite S, Eh; cbn [alloc]; fold h1 a'; rewrite ET; reflexivity|].
      split; [apply kept_set_kids; [eapply kept_trans; [apply kept_app|exact K2]|unfold a'; lia]|].
      split.
      * destruct R2 as (K' & RB' & RM'). split; [apply kept_set_kids; assumption|].
        split; [intros b I; unfold h3; rewrite set_kids_length; apply RB'; now right|].
        intros b b' Sb. destruct (RM' b b' Sb) as [[<-|I]|Q].
        -- right. intros t Dt. pose proof (denotes_fun _ _ _ _ D0 Dt) as ->.
           assert (X : seen memo2 a = Some a').
           { apply S2. cbn [seen]. now rewrite Nat.eqb_refl. }
           rewrite X in Sb. injection Sb as <-. exact PA.
        -- now left.
        -- right. intros t Dt. apply apart_update. now apply Q.
      * split; [exact PA|]. intros b b' Sb. apply S2. cbn [seen].
        destruct (Nat.eqb_spec b a) as [->|N]; [congruence|exact Sb].
Qed.

Lemma deepcopy_ok : forall h c t, denotes h c t -> exists h' c', deepcopy h c = Some (h', c') /\
  kept h h' /\ denotes h' c' t /\ all_new h h' c'.
Proof.
  intros h c t D.
  destruct (dcopy_ok h t (List.length h) c h [] [] []) as (h' & m' & c' & E & K & _ & [D' M] & _).
  - eapply height_le; eauto.
  - exact D.
  - split; [apply kept_refl|]. split; [intros b []|]. intros b b' S. discriminate.
  - intros b t' [].
  - exists h', c'. unfold deepcopy. rewrite E. repeat split; auto.
    apply new_iff. intros b Mb. now apply M.
Qed.

Lemma deepcopy_ref : forall h a t, denotes h (Ref a) t -> exists h' a', deepcopy h (Ref a) = Some (h', Ref a') /\
  kept h h' /\ denotes h' (Ref a') t /\ all_new h h' (Ref a') /\ List.length h <= a'.
Proof.
  intros h a t D. destruct (deepcopy_ok h (Ref a) t D) as (h' & c' & E & K & D' & N).
  destruct c' as [a'|s].
  - exists h', a'. repeat split; auto. apply (proj1 (new_iff _ _ _) N). constructor.
  - inversion D; subst. inversion D'.
Qed.
