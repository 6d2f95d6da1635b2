(** C31 and C32: filling a document from another (LdmlMerge.overlay). *)
From Coq Require Import String.
From Verif Require Import Py PyFacts M_LdmlBase M_Serialize M_Normalise M_Drafts T_Drafts T_Promote T_AddNode M_Merge.
Local Open Scope list_scope.
Local Open Scope nat_scope.

(** * Specification *)

(** the first child with a key *)
Definition find_key (k : Z) (l : list lnode) : option lnode := List.find (fun c => Z.eqb (lah c) k) l.
(** the element reached by a path of keys *)
Fixpoint lookup (n : lnode) (p : list Z) : option lnode :=
  match p with
  | [] => Some n
  | k :: p' => match find_key k (lkids n) with Some c => lookup c p' | None => None end
  end.
(** all elements of a tree *)
Inductive everywhere (P : lnode -> Prop) (n : lnode) : Prop :=
  ew : P n -> (forall c, In c (lkids n) -> everywhere P c) -> everywhere P n.
(** siblings have different keys *)
Definition keyed : lnode -> Prop := everywhere (fun x => NoDup (map lah (lkids x))).
(** no font resources, no aliases *)
Definition no_fonts : lnode -> Prop := everywhere (fun x => ltag x <> ext_tag).
Definition no_alias : lnode -> Prop := everywhere (fun x => ltag x <> lit "alias").
(** the elements that have no part in inheritance, such as identity *)
Definition is_blocked (m : meta) (x : lnode) : Prop := In (ltag x) (m_blocks m).

(** equal content hashes are no accident: what has the hash of an element of the other
    document at the same place has all its elements *)
Definition hashes_tell (s o : lnode) : Prop :=
  forall p t x, p <> [] -> lookup s p = Some t -> lookup o p = Some x -> lch t = lch x ->
    forall q, lookup x q <> None -> lookup t q <> None.

(** the paths that [o] adds to [s]: down the elements they share to one that only [o] has, not
    through blocked ones, and on below it *)
Inductive added (m : meta) : lnode -> lnode -> list Z -> Prop :=
| added_new s o k p x : find_key k (lkids s) = None -> find_key k (lkids o) = Some x ->
    ~ is_blocked m x -> lookup x p <> None -> added m s o (k :: p)
| added_below s o k p c x : find_key k (lkids s) = Some c -> find_key k (lkids o) = Some x ->
    ~ is_blocked m x -> added m c x p -> added m s o (k :: p).
(** a place they share where they differ *)
Inductive shared (m : meta) : lnode -> lnode -> list Z -> lnode -> lnode -> Prop :=
| shared_here s o : shared m s o [] s o
| shared_below s o k p c x t y : find_key k (lkids s) = Some c -> find_key k (lkids o) = Some x ->
    ~ is_blocked m x -> ltag x <> ext_tag -> lch c <> lch x -> shared m c x p t y ->
    shared m s o (k :: p) t y.

(** the same element but for its text and its children *)
Definition same_but_inside (t t' : lnode) : Prop :=
  ltag t' = ltag t /\ lattrs t' = lattrs t /\ lah t' = lah t /\ lch t' = lch t /\ lalts t' = lalts t.

(** * Proof *)
Lemma lnode_kids_ind (P : lnode -> Prop) :
  (forall t a x h c al k, Forall P k -> P (LNode t a x h c al k)) -> forall n, P n.
Proof.
  intro H. fix IH 1. intros [t a x h c al k]. apply H.
  induction k as [|y k IHk]; constructor; [apply IH|exact IHk].
Qed.

Lemma ew_here P n : everywhere P n -> P n.
Proof. now intros []. Qed.
Lemma ew_kid P n c : everywhere P n -> In c (lkids n) -> everywhere P c.
Proof. intros [_ H]. apply H. Qed.

Lemma find_key_in k l x : find_key k l = Some x -> In x l /\ lah x = k.
Proof. intro H. apply find_some in H as [H1 H2]. now apply Z.eqb_eq in H2. Qed.
Lemma find_key_none k l : find_key k l = None <-> ~ In k (map lah l).
Proof.
  split.
  - intros H Hin. apply in_map_iff in Hin as (x & <- & Hx). apply (find_none _ _ H) in Hx. now rewrite Z.eqb_refl in Hx.
  - intro H. destruct (find_key k l) as [x|] eqn:E; [|reflexivity]. apply find_key_in in E as [H1 <-].
    exfalso. apply H. now apply in_map.
Qed.
Lemma find_key_NoDup l x : NoDup (map lah l) -> In x l -> find_key (lah x) l = Some x.
Proof.
  induction l as [|y l IH]; intros ND H; [destruct H|]. cbn [map] in ND. inversion ND as [|? ? N1 N2]; subst.
  unfold find_key. cbn [find]. destruct H as [->|H]; [now rewrite Z.eqb_refl|].
  destruct (Z.eqb_spec (lah y) (lah x)) as [E|_]; [|now apply IH].
  exfalso. apply N1. rewrite E. now apply in_map.
Qed.
Lemma find_key_app k l l' : find_key k (l ++ l') = match find_key k l with Some x => Some x | None => find_key k l' end.
Proof. unfold find_key. induction l as [|y l IH]; cbn; [reflexivity|]. destruct (Z.eqb _ k); auto. Qed.

Lemma find_key_head x l : find_key (lah x) (x :: l) = Some x.
Proof. unfold find_key. cbn [find]. now rewrite Z.eqb_refl. Qed.

Lemma key_index_spec o l :
  match key_index o l with
  | Some i => exists t, nth_error l i = Some t /\ find_key (lah o) l = Some t
  | None => find_key (lah o) l = None
  end.
Proof.
  unfold key_index. induction l as [|y l IH]; cbn [index_where]; [reflexivity|].
  unfold same_key at 1, find_key. cbn [find]. destruct (Z.eqb (lah y) (lah o)) eqn:E.
  - exists y. auto.
  - fold (find_key (lah o) l). destruct (index_where _ l); [|assumption]. destruct IH as (t & H1 & H2). exists t. auto.
Qed.
Lemma find_key_replace o l i t t' k : key_index o l = Some i -> nth_error l i = Some t -> lah t' = lah t ->
  find_key k (replace_nth i t' l) = if Z.eqb (lah o) k then Some t' else find_key k l.
Proof.
  unfold key_index, find_key. revert i. induction l as [|y l IH]; intros i; cbn [index_where]; [discriminate|].
  unfold same_key at 1. destruct (Z.eqb_spec (lah y) (lah o)) as [E|N].
  - intro H. injection H as <-. cbn [nth_error replace_nth find]. intros H Ht. injection H as ->. rewrite Ht, E.
    destruct (Z.eqb_spec (lah o) k); reflexivity.
  - destruct (index_where _ l) as [j|]; [|discriminate]. intro H. injection H as <-. cbn [nth_error replace_nth find].
    intros H Ht. rewrite (IH j eq_refl H Ht).
    destruct (Z.eqb_spec (lah y) k) as [<-|]; [|reflexivity].
    destruct (Z.eqb_spec (lah o) (lah y)); [congruence|reflexivity].
Qed.
Lemma map_lah_replace l i t t' : nth_error l i = Some t -> lah t' = lah t -> map lah (replace_nth i t' l) = map lah l.
Proof.
  revert i. induction l as [|y l IH]; intros [|i] H Ht; cbn in *; try discriminate.
  - injection H as ->. now rewrite Ht.
  - f_equal. now apply IH.
Qed.
Lemma replace_same {X} i (t : X) l : nth_error l i = Some t -> replace_nth i t l = l.
Proof. revert i. induction l as [|y l IH]; intros [|i] H; cbn in *; try discriminate; [congruence|]. now rewrite IH. Qed.
Lemma replace_length {X} i (t : X) l : List.length (replace_nth i t l) = List.length l.
Proof. revert i. induction l as [|y l IH]; intros [|i]; cbn; auto. Qed.

Lemma set_kids_fields n k :
  ltag (set_kids n k) = ltag n /\ lattrs (set_kids n k) = lattrs n /\ ltext (set_kids n k) = ltext n /\
  lah (set_kids n k) = lah n /\ lch (set_kids n k) = lch n /\ lalts (set_kids n k) = lalts n /\
  lkids (set_kids n k) = k.
Proof. destruct n. cbn. auto 10. Qed.
Lemma set_text_fields n x :
  ltag (set_text n x) = ltag n /\ lattrs (set_text n x) = lattrs n /\ ltext (set_text n x) = x /\
  lah (set_text n x) = lah n /\ lch (set_text n x) = lch n /\ lalts (set_text n x) = lalts n /\
  lkids (set_text n x) = lkids n.
Proof. destruct n. cbn. auto 10. Qed.
Lemma set_kids_same n : set_kids n (lkids n) = n.
Proof. destruct n. reflexivity. Qed.
Lemma lnode_eq a b : ltag a = ltag b -> lattrs a = lattrs b -> ltext a = ltext b -> lah a = lah b ->
  lch a = lch b -> lalts a = lalts b -> lkids a = lkids b -> a = b.
Proof. destruct a, b. cbn. congruence. Qed.

(** the text replaced after the recursive call *)
Definition arrow (o t' : lnode) : lnode :=
  if (opteq (ltext t') (Some arrows) && negb (opteq (ltext o) (Some [])))%bool
  then set_text t' (ltext o) else t'.
Lemma arrow_fields o t : same_but_inside t (arrow o t) /\ lkids (arrow o t) = lkids t.
Proof.
  unfold arrow, same_but_inside. destruct (_ && _)%bool; [|auto 10].
  destruct (set_text_fields t (ltext o)) as (-> & -> & _ & -> & -> & -> & ->). auto 10.
Qed.

Section Overlay.
  Variable m : meta.
  Local Notation overlay := (overlay m).
  Local Notation blocked := (blocked m).

  Lemma blocked_spec x : blocked x = true <-> is_blocked m x.
  Proof. unfold M_Merge.blocked, is_blocked. rewrite memstr_iff. reflexivity. Qed.
  Lemma not_blocked x : blocked x = false <-> ~ is_blocked m x.
  Proof. rewrite <- blocked_spec. destruct (blocked x); split; congruence || intuition. Qed.

  (** one child of the other document *)
  Definition ov_step (o this : lnode) : res lnode :=
    if blocked o then Ok this else overlay_child (overlay o) o this.

  Lemma overlay_kids other this : (forall o, In o (lkids other) -> ltag o <> ext_tag) ->
    overlay other this = fold_res ov_step (lkids other) this.
  Proof.
    destruct other as [t a x h c al k]. cbn [lkids M_Merge.overlay]. intro N. revert this.
    induction k as [|o k IH]; intros this; [reflexivity|]. cbn [fold_res].
    assert (ltag o <> ext_tag) as No by (apply N; now left).
    assert (forall A (u v : A), (if streq (ltag o) ext_tag then u else v) = v) as E.
    { intros. destruct (streq_spec (ltag o) ext_tag); [contradiction|reflexivity]. }
    rewrite E. unfold ov_step at 1. destruct (blocked o); cbn [bind].
    - apply IH. intros y Hy. apply N. now right.
    - destruct (overlay_child (overlay o) o this); cbn [bind]; [|reflexivity]. apply IH. intros y Hy. apply N. now right.
  Qed.

  (** what one child does *)
  Definition stays (this r : lnode) : Prop := same_but_inside this r /\ ltext r = ltext this.
  Lemma stays_refl n : stays n n.
  Proof. repeat split. Qed.
  Lemma stays_trans a b c : stays a b -> stays b c -> stays a c.
  Proof.
    intros [(H1 & H2 & H3 & H4 & H5) H6] [(G1 & G2 & G3 & G4 & G5) G6].
    repeat split; congruence.
  Qed.
  Lemma stays_set_kids n k : stays n (set_kids n k).
  Proof. destruct n. repeat split. Qed.

  (** the child of the result with key [k] *)
  Definition level (k : Z) (okids : list lnode) (this r : lnode) : Prop :=
    match find_key k (lkids this), find_key k okids with
    | Some c, Some x =>
        if blocked x then find_key k (lkids r) = Some c
        else if Z.eqb (lch x) (lch c) then find_key k (lkids r) = Some c
        else exists t', overlay x c = Ok t' /\ find_key k (lkids r) = Some (arrow x t')
    | Some c, None => find_key k (lkids r) = Some c
    | None, Some x =>
        if blocked x then find_key k (lkids r) = None
        else find_key k (lkids r) = Some x \/
             (ltag x = lit "alias" /\ find_key k (lkids r) = None /\ lkids r <> [])
    | None, None => find_key k (lkids r) = None
    end.
  Definition grows (this r : lnode) : Prop := exists l, map lah (lkids r) = map lah (lkids this) ++ l.
  Lemma grows_refl n : grows n n.
  Proof. exists []. now rewrite app_nil_r. Qed.
  Lemma grows_trans a b c : grows a b -> grows b c -> grows a c.
  Proof. intros [l H] [l' H']. exists (l ++ l'). now rewrite H', H, app_assoc. Qed.
  Lemma grows_nonempty a b : grows a b -> lkids a <> [] -> lkids b <> [].
  Proof. intros [l H] N E. rewrite E in H. destruct (lkids a); [contradiction|discriminate]. Qed.

  Lemma ov_step_spec x this :
    (forall c, exists t', overlay x c = Ok t' /\ stays c t') ->
    exists r, ov_step x this = Ok r /\ stays this r /\ grows this r /\
      level (lah x) [x] this r /\
      (forall k, k <> lah x -> find_key k (lkids r) = find_key k (lkids this)).
  Proof.
    intro Hx. unfold ov_step, level. rewrite find_key_head.
    destruct (blocked x) eqn:Eb.
    - exists this. split; [reflexivity|]. split; [apply stays_refl|]. split; [apply grows_refl|].
      split; [destruct (find_key (lah x) (lkids this)); reflexivity|reflexivity].
    - unfold overlay_child. pose proof (key_index_spec x (lkids this)) as K.
      destruct (key_index x (lkids this)) as [i|] eqn:Ei.
      + destruct K as (t & Hi & Hf). rewrite Hi, Hf. destruct (Z.eqb (lch x) (lch t)) eqn:Ec.
        * exists this. split; [reflexivity|]. split; [apply stays_refl|]. split; [apply grows_refl|]. auto.
        * destruct (Hx t) as (t' & Et & St). rewrite Et. cbn [bind]. fold (arrow x t').
          assert (lah (arrow x t') = lah t) as Ha.
          { destruct (arrow_fields x t') as [(_ & _ & -> & _) _]. now destruct St as [(_ & _ & -> & _) _]. }
          eexists. split; [reflexivity|]. split; [apply stays_set_kids|].
          destruct (set_kids_fields this (replace_nth i (arrow x t') (lkids this))) as (_ & _ & _ & _ & _ & _ & Ek).
          unfold grows. rewrite Ek. split; [|split].
          -- exists []. rewrite app_nil_r. now apply (map_lah_replace _ _ t).
          -- exists t'. split; [reflexivity|]. rewrite (find_key_replace x _ _ t) by assumption. now rewrite Z.eqb_refl.
          -- intros k Nk. rewrite (find_key_replace x _ _ t) by assumption.
             destruct (Z.eqb_spec (lah x) k); [congruence|reflexivity].
      + rewrite K. destruct (streq_spec (ltag x) (lit "alias")) as [Al|Al]; cbn [negb orb].
        * destruct (lkids this) as [|y l] eqn:Ek.
          -- exists (set_kids this [x]). split; [reflexivity|]. split; [apply stays_set_kids|].
             destruct (set_kids_fields this [x]) as (_ & _ & _ & _ & _ & _ & Ek').
             unfold grows. rewrite Ek', Ek. split; [exists [lah x]; reflexivity|]. split.
             ++ left. unfold find_key. cbn [find]. now rewrite Z.eqb_refl.
             ++ intros k Nk. unfold find_key. cbn [find]. destruct (Z.eqb_spec (lah x) k); [congruence|reflexivity].
          -- exists this. split; [reflexivity|]. split; [apply stays_refl|]. split; [apply grows_refl|].
             rewrite Ek. split; [right; split; [assumption|split; [assumption|discriminate]]|reflexivity].
        * eexists. split; [reflexivity|]. split; [apply stays_set_kids|].
          destruct (set_kids_fields this (lkids this ++ [x])) as (_ & _ & _ & _ & _ & _ & Ek).
          unfold grows. rewrite Ek. split; [exists [lah x]; now rewrite map_app|]. split.
          -- left. rewrite find_key_app, K. unfold find_key. cbn [find]. now rewrite Z.eqb_refl.
          -- intros k Nk. rewrite find_key_app. destruct (find_key k (lkids this)); [reflexivity|].
             unfold find_key. cbn [find]. destruct (Z.eqb_spec (lah x) k); [congruence|reflexivity].
  Qed.

  Lemma level_ext k okids this this2 r : find_key k (lkids this2) = find_key k (lkids this) ->
    level k okids this r -> level k okids this2 r.
  Proof. unfold level. now intros ->. Qed.

  Lemma fold_step_spec okids : forall this,
    (forall x, In x okids -> forall c, exists t', overlay x c = Ok t' /\ stays c t') ->
    NoDup (map lah okids) ->
    exists r, fold_res ov_step okids this = Ok r /\ stays this r /\ grows this r /\
      forall k, level k okids this r.
  Proof.
    induction okids as [|x okids IH]; intros this Hx ND; cbn [fold_res].
    - exists this. split; [reflexivity|]. split; [apply stays_refl|]. split; [apply grows_refl|].
      intro k. unfold level. cbn. destruct (find_key k (lkids this)); reflexivity.
    - cbn [map] in ND. inversion ND as [|? ? N1 N2]; subst.
      destruct (ov_step_spec x this) as (r1 & E1 & S1 & G1 & L1 & O1); [intro; apply Hx; now left|].
      rewrite E1. cbn [bind].
      destruct (IH r1) as (r & E & S & G & L); [intros; apply Hx; now right|assumption|].
      exists r. split; [assumption|]. split; [eapply stays_trans; eassumption|].
      split; [eapply grows_trans; eassumption|].
      intro k. specialize (L k). destruct (Z.eq_dec k (lah x)) as [->|Nk].
      + (* the later children have other keys *)
        assert (find_key (lah x) okids = None) as No by now apply find_key_none.
        unfold level in L. rewrite No in L.
        assert (find_key (lah x) (lkids r) = find_key (lah x) (lkids r1)) as Er.
        { destruct (find_key (lah x) (lkids r1)); assumption. }
        unfold level in *. rewrite find_key_head in *. rewrite Er. destruct (find_key (lah x) (lkids this)); [assumption|].
        destruct (blocked x); [assumption|]. destruct L1 as [L1|(L1 & L2 & L3)]; [now left|right].
        split; [assumption|]. split; [assumption|]. eapply grows_nonempty; eassumption.
      + unfold level in *. rewrite O1 in L by assumption.
        assert (find_key k (x :: okids) = find_key k okids) as ->.
        { unfold find_key. cbn [find]. destruct (Z.eqb_spec (lah x) k); [congruence|reflexivity]. }
        exact L.
  Qed.

  Lemma overlay_spec o : keyed o -> no_fonts o -> forall this,
    exists r, overlay o this = Ok r /\ stays this r /\ grows this r /\ forall k, level k (lkids o) this r.
  Proof.
    induction o as [t a x h c al k IH] using lnode_kids_ind. intros K F this.
    rewrite overlay_kids.
    - apply fold_step_spec; [|exact (ew_here _ _ K)].
      intros y Hy this'. cbn [lkids] in Hy. rewrite Forall_forall in IH.
      destruct (IH y Hy (ew_kid _ _ _ K Hy) (ew_kid _ _ _ F Hy) this') as (r & E & S & _). eauto.
    - intros y Hy. apply (ew_here _ _ (ew_kid _ _ _ F Hy)).
  Qed.

  Lemma arrow_text o t : ltext (arrow o t) = ltext t \/ (ltext t = Some arrows /\ ltext (arrow o t) = ltext o).
  Proof.
    unfold arrow. destruct (opteq_spec (ltext t) (Some arrows)) as [E|N]; cbn [andb]; [|now left].
    destruct (negb _); [|now left]. right. split; [assumption|].
    now destruct (set_text_fields t (ltext o)) as (_ & _ & -> & _).
  Qed.

  Lemma lookup_arrow o t p : p <> [] -> lookup (arrow o t) p = lookup t p.
  Proof.
    destruct p as [|k p]; [congruence|]. intros _. cbn [lookup].
    destruct (arrow_fields o t) as [_ ->]. reflexivity.
  Qed.

  Lemma hashes_tell_below s o k c x : hashes_tell s o ->
    find_key k (lkids s) = Some c -> find_key k (lkids o) = Some x -> hashes_tell c x.
  Proof.
    intros H Hc Hx p t y Np Ht Hy. apply (H (k :: p) t y); cbn [lookup]; [discriminate|now rewrite Hc|now rewrite Hx].
  Qed.
  Lemma added_missing s o p : added m s o p -> lookup s p = None /\ lookup o p <> None.
  Proof.
    induction 1; cbn [lookup]; rewrite H, H0; [auto|assumption].
  Qed.

  Lemma added_inv s o k p c x : added m s o (k :: p) -> find_key k (lkids s) = Some c ->
    find_key k (lkids o) = Some x -> ~ is_blocked m x /\ added m c x p.
  Proof.
    intros H Hc Hx. inversion H; subst; [congruence|].
    assert (x0 = x) by congruence. assert (c0 = c) by congruence. subst. auto.
  Qed.

  (** ** C31 *)

  (** nothing of the document is lost *)
  Theorem C31_kept : forall s o, keyed o -> no_fonts o ->
    exists r, overlay o s = Ok r /\
      forall p t, lookup s p = Some t ->
        exists t', lookup r p = Some t' /\ same_but_inside t t' /\
          (ltext t' = ltext t \/
           (ltext t = Some arrows /\ exists x, lookup o p = Some x /\ ltext t' = ltext x)) /\
          (exists new, map lah (lkids t') = map lah (lkids t) ++ new).
  Proof.
    intros s o K F. destruct (overlay_spec o K F s) as (r & E & _). exists r. split; [assumption|].
    revert s o r K F E.
    assert (forall p s o r, keyed o -> no_fonts o -> overlay o s = Ok r -> forall t, lookup s p = Some t ->
        exists t', lookup r p = Some t' /\ same_but_inside t t' /\
          (ltext t' = ltext t \/
           (ltext t = Some arrows /\ exists x, lookup o p = Some x /\ ltext t' = ltext x)) /\
          (exists new, map lah (lkids t') = map lah (lkids t) ++ new)) as Main.
    { induction p as [|k p IH]; intros s o r K F E t Ht;
        destruct (overlay_spec o K F s) as (r' & E' & St & G & L); assert (r' = r) by congruence; subst r'.
      - injection Ht as <-. exists r. split; [reflexivity|]. split; [apply St|]. split; [left; apply St|apply G].
      - cbn [lookup] in Ht. destruct (find_key k (lkids s)) as [c|] eqn:Ec; [|discriminate].
        specialize (L k). unfold level in L. rewrite Ec in L. cbn [lookup].
        assert (find_key k (lkids r) = Some c -> exists t', match find_key k (lkids r) with Some c0 => lookup c0 p | None => None end = Some t' /\
           same_but_inside t t' /\ (ltext t' = ltext t \/ (ltext t = Some arrows /\
             exists x, match find_key k (lkids o) with Some c0 => lookup c0 p | None => None end = Some x /\ ltext t' = ltext x)) /\
           (exists new, map lah (lkids t') = map lah (lkids t) ++ new)) as Same.
        { intros ->. exists t. split; [assumption|]. split; [repeat split|]. split; [now left|]. exists []. now rewrite app_nil_r. }
        destruct (find_key k (lkids o)) as [x|] eqn:Ex; [|now apply Same].
        destruct (blocked x); [now apply Same|]. destruct (Z.eqb (lch x) (lch c)); [now apply Same|].
        clear Same. destruct L as (c' & Ec' & Hr). rewrite Hr.
        apply find_key_in in Ex as [Ex _].
        destruct (IH c x c' (ew_kid _ _ _ K Ex) (ew_kid _ _ _ F Ex) Ec' t Ht) as (t' & H1 & H2 & H3 & H4).
        destruct p as [|k2 p].
        + cbn [lookup] in *. injection Ht as <-. injection H1 as <-.
          exists (arrow x c'). split; [reflexivity|]. destruct (arrow_fields x c') as [A1 A2].
          split; [|split].
          * unfold same_but_inside in *. destruct A1 as (-> & -> & -> & -> & ->). exact H2.
          * destruct (arrow_text x c') as [->|[Ea ->]]; [assumption|]. right.
            destruct H3 as [H3|(H3 & _)]; [|split; [assumption|eauto]].
            split; [congruence|eauto].
          * rewrite A2. exact H4.
        + exists t'. rewrite lookup_arrow by discriminate. auto. }
    intros s o r K F E p t Ht. eapply Main; eassumption.
  Qed.

  (** an inherited value is filled in *)
  Theorem C31_inherited : forall s o, keyed o -> no_fonts o ->
    exists r, overlay o s = Ok r /\
      forall p t x, p <> [] -> shared m s o p t x -> ltext t = Some arrows -> ltext x <> Some [] ->
        exists t', lookup r p = Some t' /\ ltext t' = ltext x.
  Proof.
    intros s o K F. destruct (overlay_spec o K F s) as (r & E & _). exists r. split; [assumption|].
    intros p t x Np Sh. revert r K F E Np. induction Sh as [s o|s o k p c y t x Hc Hy Nb Nx Nh Sh IH];
      intros r K F E Np Ht Hx; [congruence|].
    destruct (overlay_spec o K F s) as (r' & E' & St & G & L). assert (r' = r) by congruence. subst r'.
    specialize (L k). unfold level in L. rewrite Hc, Hy in L. apply not_blocked in Nb. rewrite Nb in L.
    destruct (Z.eqb_spec (lch y) (lch c)) as [|_]; [congruence|]. destruct L as (c' & Ec' & Hr).
    cbn [lookup]. rewrite Hr. pose proof (find_key_in _ _ _ Hy) as [Iy _].
    destruct p as [|k2 p].
    - inversion Sh; subst. exists (arrow x c'). split; [reflexivity|]. unfold arrow.
      destruct (overlay_spec x (ew_kid _ _ _ K Iy) (ew_kid _ _ _ F Iy) t) as (r2 & E2 & S2 & _).
      assert (r2 = c') by congruence. subst r2. destruct S2 as [_ S2]. rewrite S2, Ht.
      destruct (opteq_spec (Some arrows) (Some arrows)) as [_|N]; [|congruence].
      destruct (opteq_spec (ltext x) (Some [])) as [|_]; [contradiction|]. cbn [andb negb].
      now destruct (set_text_fields c' (ltext x)) as (_ & _ & -> & _).
    - rewrite lookup_arrow by discriminate.
      apply (IH c' (ew_kid _ _ _ K Iy) (ew_kid _ _ _ F Iy) Ec'); [discriminate|assumption|assumption].
  Qed.

  Lemma overlay_missing : forall p s o r, keyed o -> no_fonts o -> no_alias o -> hashes_tell s o ->
    overlay o s = Ok r ->
    (added m s o p -> lookup r p = lookup o p) /\
    (lookup s p = None -> lookup r p <> None -> added m s o p).
  Proof.
    induction p as [|k p IH]; intros s o r K F A Ht E;
      destruct (overlay_spec o K F s) as (r' & E' & St & G & L); assert (r' = r) by congruence; subst r'.
    - split; [intro H; inversion H|discriminate].
    - specialize (L k). unfold level in L. cbn [lookup].
      destruct (find_key k (lkids s)) as [c|] eqn:Ec; destruct (find_key k (lkids o)) as [x|] eqn:Ex.
      + pose proof (find_key_in _ _ _ Ex) as [Ix _].
        destruct (blocked x) eqn:Eb.
        * rewrite L. split; [|congruence]. intro H. destruct (added_inv _ _ _ _ _ _ H Ec Ex) as [H1 _].
          apply blocked_spec in Eb. contradiction.
        * destruct (Z.eqb_spec (lch x) (lch c)) as [Eh|Nh].
          -- rewrite L. split; [|congruence]. intro H. destruct (added_inv _ _ _ _ _ _ H Ec Ex) as [_ H9].
             apply added_missing in H9 as [H1 H2]. exfalso.
             apply (Ht [k] c x) with (q := p); cbn [lookup]; rewrite ?Ec, ?Ex; auto; discriminate.
          -- destruct L as (c' & Ec' & ->).
             destruct (IH c x c' (ew_kid _ _ _ K Ix) (ew_kid _ _ _ F Ix) (ew_kid _ _ _ A Ix)
                          (hashes_tell_below _ _ _ _ _ Ht Ec Ex) Ec') as [I1 I2].
             split.
             ++ intro H. destruct (added_inv _ _ _ _ _ _ H Ec Ex) as [_ H9].
                destruct p as [|k2 p]; [inversion H9|]. rewrite lookup_arrow by discriminate. now apply I1.
             ++ intros Hn Hs. apply not_blocked in Eb. eapply added_below; try eassumption.
                apply I2; [assumption|]. destruct p as [|k2 p]; [discriminate|].
                now rewrite lookup_arrow in Hs by discriminate.
      + rewrite L. split; [|congruence]. intro H. inversion H; subst; congruence.
      + pose proof (find_key_in _ _ _ Ex) as [Ix _]. destruct (blocked x) eqn:Eb.
        * rewrite L. split; [|congruence]. intro H. apply blocked_spec in Eb. inversion H; subst; congruence.
        * destruct L as [->|[Al _]].
          -- split; [reflexivity|]. intros _ Hn. apply not_blocked in Eb. now apply added_new with (x := x).
          -- exfalso. exact (ew_here _ _ (ew_kid _ _ _ A Ix) Al).
      + rewrite L. split; [|congruence]. intro H. inversion H; subst; congruence.
  Qed.

  (** what is added is what the other document has where this one has nothing, with all that is
      below it; nothing else is added *)
  Theorem C31_added : forall s o, keyed o -> no_fonts o -> no_alias o -> hashes_tell s o ->
    exists r, overlay o s = Ok r /\
      forall p, lookup s p = None ->
        (added m s o p -> lookup r p = lookup o p) /\
        (~ added m s o p -> lookup r p = None).
  Proof.
    intros s o K F A Ht. destruct (overlay_spec o K F s) as (r & E & _). exists r. split; [assumption|].
    intros p Hp. destruct (overlay_missing p s o r K F A Ht E) as [I1 I2]. split; [assumption|].
    intro N. destruct (lookup r p) eqn:El; [|reflexivity]. exfalso. apply N, I2; [assumption|congruence].
  Qed.

  (** without blocked elements: the union of the paths, this document first *)
  Theorem C31_union : forall s o, keyed o -> no_fonts o -> no_alias o -> hashes_tell s o ->
    everywhere (fun x => ~ is_blocked m x) o ->
    exists r, overlay o s = Ok r /\
      forall p, (lookup r p <> None <-> lookup s p <> None \/ lookup o p <> None) /\
                (lookup s p = None -> lookup r p = lookup o p).
  Proof.
    intros s o K F A Ht B. destruct (C31_added s o K F A Ht) as (r & E & H1).
    destruct (C31_kept s o K F) as (r2 & E2 & H2). assert (r2 = r) by congruence. subst r2.
    exists r. split; [assumption|]. intro p.
    assert (forall p s o, everywhere (fun x => ~ is_blocked m x) o -> lookup s p = None -> lookup o p <> None -> added m s o p) as Q.
    { clear. induction p as [|k p IH]; intros s o B Hs Ho; [discriminate|]. cbn [lookup] in *.
      destruct (find_key k (lkids o)) as [x|] eqn:Ex; [|congruence].
      pose proof (find_key_in _ _ _ Ex) as [Ix _]. pose proof (ew_kid _ _ _ B Ix) as Bx.
      destruct (find_key k (lkids s)) as [c|] eqn:Ec.
      - eapply added_below; try eassumption; [exact (ew_here _ _ Bx)|]. now apply IH.
      - eapply added_new; try eassumption. exact (ew_here _ _ Bx). }
    assert (lookup s p = None -> lookup r p = lookup o p) as Left.
    { intro Hs. destruct (H1 p Hs) as [I1 I2]. destruct (lookup o p) as [y|] eqn:Eo.
      - rewrite <- Eo in *. apply I1, Q; congruence.
      - apply I2. intro Ha. apply added_missing in Ha as [_ Ha]. congruence. }
    split; [|assumption].
    destruct (lookup s p) as [t|] eqn:Es.
    - destruct (H2 p t Es) as (t' & -> & _). split; [left; discriminate|discriminate].
    - rewrite Left by reflexivity. intuition.
  Qed.

  (** ** C32 *)
  Lemma overlay_set_text o this x r : overlay o this = Ok r -> keyed o -> no_fonts o ->
    overlay o (set_text this x) = Ok (set_text r x).
  Proof.
    intros E K F.
    revert E. rewrite !overlay_kids by (intros y Hy; apply (ew_here _ _ (ew_kid _ _ _ F Hy))).
    generalize (lkids o). intro l. revert this r. induction l as [|y l IH]; intros this r; cbn [fold_res].
    - intro E. injection E as ->. reflexivity.
    - destruct (ov_step y this) as [r1|] eqn:E1; [|discriminate]. cbn [bind]. intro E.
      assert (ov_step y (set_text this x) = Ok (set_text r1 x)) as ->; [|cbn [bind]; now apply IH].
      revert E1. unfold ov_step. destruct (blocked y); [intro H; injection H as ->; reflexivity|].
      unfold overlay_child. destruct this as [a b cc d e f g]. cbn [set_text lkids].
      destruct (key_index y g) as [i|].
      + destruct (nth_error g i) as [t|].
        * destruct (Z.eqb (lch y) (lch t)); [intro H; injection H as <-; reflexivity|].
          destruct (overlay y t); [|discriminate]. cbn [bind]. intro H. injection H as <-. reflexivity.
        * intro H. injection H as <-. reflexivity.
      + destruct (_ || _)%bool; intro H; injection H as <-; reflexivity.
  Qed.

  Lemma arrow_arrow o t : arrow o (arrow o t) = arrow o t.
  Proof.
    unfold arrow at 2 3. destruct (opteq_spec (ltext t) (Some arrows)) as [E|N]; cbn [andb].
    - destruct (negb (opteq (ltext o) (Some []))) eqn:En.
      + unfold arrow. destruct t. cbn. rewrite En. destruct (opteq (ltext o) (Some arrows)); reflexivity.
      + unfold arrow. rewrite En. now rewrite Bool.andb_false_r.
    - unfold arrow. destruct (opteq_spec (ltext t) (Some arrows)); [contradiction|reflexivity].
  Qed.

  Theorem C32_idempotent : forall o s r, keyed o -> no_fonts o ->
    overlay o s = Ok r -> overlay o r = Ok r.
  Proof.
    induction o as [t a x h c al k IH] using lnode_kids_ind. intros s r K F E.
    destruct (overlay_spec _ K F s) as (r' & E' & _ & _ & L). assert (r' = r) by congruence. subst r'.
    rewrite overlay_kids by (intros y Hy; apply (ew_here _ _ (ew_kid _ _ _ F Hy))).
    cbn [lkids] in *.
    assert (forall y, In y k -> ov_step y r = Ok r) as Hy.
    { intros y Hy. unfold ov_step. destruct (blocked y) eqn:Eb; [reflexivity|].
      pose proof (find_key_NoDup _ _ (ew_here _ _ K) Hy) as Hf. cbn [lkids] in Hf.
      specialize (L (lah y)). unfold level in L. rewrite Hf, Eb in L.
      unfold overlay_child. pose proof (key_index_spec y (lkids r)) as Ki.
      destruct (key_index y (lkids r)) as [i|] eqn:Ei.
      - destruct Ki as (u & Hu & Hk). rewrite Hu. rewrite Hk in L.
        destruct (find_key (lah y) (lkids s)) as [c0|].
        + destruct (Z.eqb (lch y) (lch c0)) eqn:Ec.
          * injection L as ->. now rewrite Ec.
          * destruct L as (t' & Et & L). injection L as ->.
            rewrite Forall_forall in IH.
            assert (keyed y /\ no_fonts y) as [Ky Fy] by (split; eapply ew_kid; eassumption).
            assert (lch (arrow y t') = lch c0) as Eh.
            { destruct (arrow_fields y t') as [(_ & _ & _ & -> & _) _].
              destruct (overlay_spec y Ky Fy c0) as (r2 & E2 & [(_ & _ & _ & S & _) _] & _).
              assert (r2 = t') by congruence. now subst r2. }
            rewrite Eh, Ec.
            assert (overlay y (arrow y t') = Ok (arrow y t')) as ->.
            { pose proof (IH y Hy c0 t' Ky Fy Et) as Ei2. unfold arrow.
              destruct (_ && _)%bool; [|assumption]. now apply overlay_set_text. }
            cbn [bind]. fold (arrow y (arrow y t')). rewrite arrow_arrow, replace_same by assumption.
            now rewrite set_kids_same.
        + destruct L as [L|(_ & L & _)]; [|discriminate]. injection L as ->. now rewrite Z.eqb_refl.
      - rewrite Ki in L. destruct (find_key (lah y) (lkids s)) as [c0|].
        + destruct (Z.eqb (lch y) (lch c0)); [discriminate|]. destruct L as (? & _ & L). discriminate.
        + destruct L as [L|(L1 & _ & L2)]; [discriminate|]. rewrite L1, streq_refl. cbn [negb orb].
          destruct (lkids r); [congruence|reflexivity]. }
    clear - Hy. revert Hy. generalize k. induction k0 as [|y k0 IHk]; intro Hy; cbn [fold_res]; [reflexivity|].
    rewrite Hy by now left. cbn [bind]. apply IHk. intros z Hz. apply Hy. now right.
  Qed.

  (** ** Font resources the document does not have *)
  Definition ext_step (o this : lnode) : res lnode :=
    match key_index o (lkids this) with
    | None => Raise IndexError
    | Some i =>
        match nth_error (lkids this) i with
        | None => Raise IndexError
        | Some ext =>
            do r <- fold_res
              (fun o2 (st : list lnode * lnode) =>
                 if is_font o2 then
                   Ok (take_types (split_on 32%N (match lget o2 (lit "types") with
                                                  | Some s => s | None => [] end)) (fst st),
                       set_kids (snd st) (lkids (snd st) ++ [o2]))
                 else
                   do e <- overlay_child (overlay o2) o2 (snd st); Ok (fst st, e))
              (lkids o)
              (filter is_font (lkids ext),
               set_kids ext (filter (fun x => negb (is_font x)) (lkids ext)));
            Ok (set_kids this (replace_nth i (set_kids (snd r) (lkids (snd r) ++ fst r)) (lkids this)))
        end
    end.
  Definition any_step (o this : lnode) : res lnode :=
    if blocked o then Ok this
    else if streq (ltag o) ext_tag then ext_step o this else overlay_child (overlay o) o this.
  Lemma overlay_any other this : overlay other this = fold_res any_step (lkids other) this.
  Proof.
    destruct other as [t a x h c al k]. cbn [lkids M_Merge.overlay]. revert this.
    induction k as [|o k IH]; intros this; [reflexivity|]. cbn [fold_res].
    unfold any_step at 1, ext_step. destruct (blocked o); cbn [bind]; [apply IH|].
    destruct (streq (ltag o) ext_tag).
    - destruct (key_index o (lkids this)) as [i|]; [|reflexivity].
      destruct (nth_error (lkids this) i) as [e|]; [|reflexivity]. destruct o as [t2 a2 x2 h2 c2 al2 k2]. cbn [lkids].
      destruct (fold_res _ k2 _); cbn [bind]; [apply IH|reflexivity].
    - destruct (overlay_child (overlay o) o this); cbn [bind]; [apply IH|reflexivity].
  Qed.

  Definition only_index {A} (r : res A) : Prop := match r with Ok _ => True | Raise e => e = IndexError end.
  Lemma child_only_index o this : (forall t, only_index (overlay o t)) -> only_index (overlay_child (overlay o) o this).
  Proof.
    intro H. unfold overlay_child. destruct (key_index o (lkids this)) as [i|].
    - destruct (nth_error (lkids this) i) as [t|]; [|exact I]. destruct (Z.eqb _ _); [exact I|].
      specialize (H t). destruct (overlay o t); [exact I|exact H].
    - destruct (_ || _)%bool; exact I.
  Qed.
  Lemma fold_only_index {X S} (f : X -> S -> res S) l : forall s,
    (forall x s, In x l -> only_index (f x s)) -> only_index (fold_res f l s).
  Proof.
    induction l as [|x l IH]; intros s H; [exact I|]. cbn [fold_res].
    pose proof (H x s (or_introl eq_refl)) as Hx. destruct (f x s); cbn [bind]; [|exact Hx].
    apply IH. intros. apply H. now right.
  Qed.
  Lemma overlay_only_index o : (forall this, only_index (overlay o this)) /\
    (forall x, In x (lkids o) -> forall this, only_index (overlay x this)).
  Proof.
    induction o as [t a x h c al k IH] using lnode_kids_ind. rewrite Forall_forall in IH.
    split; [|intros y Hy this; exact (proj1 (IH y Hy) this)].
    intro this. rewrite overlay_any. apply fold_only_index. intros y this' Hy. cbn [lkids] in Hy.
    unfold any_step. destruct (blocked y); [exact I|]. destruct (streq (ltag y) ext_tag).
    - unfold ext_step. destruct (key_index y (lkids this')) as [i|]; [|reflexivity].
      destruct (nth_error (lkids this') i) as [e|]; [|reflexivity].
      match goal with |- only_index (bind (fold_res ?f ?l ?s) _) =>
        assert (only_index (fold_res f l s)) as Hf end.
      { apply fold_only_index. intros z st Hz. destruct (is_font z); [exact I|].
        pose proof (child_only_index z (snd st) (fun t => proj2 (IH y Hy) z Hz t)) as Hc.
        destruct (overlay_child _ z (snd st)); [exact I|exact Hc]. }
      destruct (fold_res _ _ _); [exact I|exact Hf].
    - apply child_only_index. exact (proj1 (IH y Hy)).
  Qed.

  Lemma child_keeps_tag ov o this r : (forall t t', ov t = Ok t' -> lah t' = lah t) ->
    overlay_child ov o this = Ok r -> lah r = lah this.
  Proof.
    intro H. unfold overlay_child. destruct (key_index o (lkids this)) as [i|].
    - destruct (nth_error (lkids this) i) as [t|]; [|congruence]. destruct (Z.eqb _ _); [congruence|].
      destruct (ov t); [|discriminate]. cbn [bind]. intro E. injection E as <-. now destruct this.
    - destruct (_ || _)%bool; intro E; injection E as <-; now destruct this.
  Qed.
  (** no step changes the child of another key, nor the key of the element *)
  Lemma fold_lah {X S} (f : X -> S -> res S) (key : S -> Z) l : forall s r,
    (forall x s s', In x l -> f x s = Ok s' -> key s' = key s) -> fold_res f l s = Ok r -> key r = key s.
  Proof.
    induction l as [|x l IH]; intros s r H; cbn [fold_res]; [congruence|].
    destruct (f x s) as [s1|] eqn:E; [|discriminate]. cbn [bind]. intro E2.
    rewrite (IH s1 r); [|intros; eapply H; eauto; now right|assumption]. eapply H; eauto. now left.
  Qed.
  Lemma overlay_lah o : (forall this r, overlay o this = Ok r -> lah r = lah this) /\
    (forall x, In x (lkids o) -> forall this r, overlay x this = Ok r -> lah r = lah this).
  Proof.
    induction o as [t a x h c al k IH] using lnode_kids_ind. rewrite Forall_forall in IH.
    split; [|intros y Hy this r; exact (proj1 (IH y Hy) this r)].
    intros this r. rewrite overlay_any. apply fold_lah. intros y s s' Hy. cbn [lkids] in Hy.
    unfold any_step. destruct (blocked y); [congruence|]. destruct (streq (ltag y) ext_tag).
    - unfold ext_step. destruct (key_index y (lkids s)) as [i|]; [|discriminate].
      destruct (nth_error (lkids s) i); [|discriminate]. destruct (fold_res _ _ _); [|discriminate].
      cbn [bind]. intro E. injection E as <-. now destruct s.
    - apply child_keeps_tag. exact (proj1 (IH y Hy)).
  Qed.
  Lemma any_step_other y this r k : any_step y this = Ok r -> k <> lah y ->
    find_key k (lkids r) = find_key k (lkids this).
  Proof.
    unfold any_step. destruct (blocked y); [congruence|]. destruct (streq (ltag y) ext_tag).
    - unfold ext_step. destruct (key_index y (lkids this)) as [i|] eqn:Ei; [|discriminate].
      destruct (nth_error (lkids this) i) as [e|] eqn:Ee; [|discriminate].
      destruct (fold_res _ _ _) as [st|] eqn:Ef; [|discriminate]. cbn [bind]. intros E Nk. injection E as <-.
      destruct (set_kids_fields this (replace_nth i (set_kids (snd st) (lkids (snd st) ++ fst st)) (lkids this))) as (_ & _ & _ & _ & _ & _ & ->).
      assert (lah (set_kids (snd st) (lkids (snd st) ++ fst st)) = lah e) as Hl.
      { destruct (set_kids_fields (snd st) (lkids (snd st) ++ fst st)) as (_ & _ & _ & -> & _).
        apply (fold_lah _ (fun st : list lnode * lnode => lah (snd st))) in Ef; [rewrite Ef; cbn [snd]; now destruct e|].
        intros z s s' Hz. destruct (is_font z).
        - intro E. injection E as <-. cbn [snd]. now destruct (snd s).
        - destruct (overlay_child _ z (snd s)) as [u|] eqn:Eu; [|discriminate]. cbn [bind]. intro E. injection E as <-.
          cbn [snd]. eapply child_keeps_tag; [|exact Eu]. exact (proj2 (overlay_lah y) z Hz). }
      rewrite (find_key_replace y _ _ e) by assumption.
      destruct (Z.eqb_spec (lah y) k); [congruence|reflexivity].
    - unfold overlay_child. destruct (key_index y (lkids this)) as [i|] eqn:Ei.
      + destruct (nth_error (lkids this) i) as [e|] eqn:Ee; [|congruence]. destruct (Z.eqb _ _); [congruence|].
        destruct (overlay y e) as [t'|] eqn:Et; [|discriminate]. cbn [bind]. fold (arrow y t'). intros E Nk. injection E as <-.
        destruct (set_kids_fields this (replace_nth i (arrow y t') (lkids this))) as (_ & _ & _ & _ & _ & _ & ->).
        rewrite (find_key_replace y _ _ e); [destruct (Z.eqb_spec (lah y) k); [congruence|reflexivity]|assumption|assumption|].
        destruct (arrow_fields y t') as [(_ & _ & -> & _) _]. now apply overlay_lah in Et.
      + destruct (_ || _)%bool; intros E Nk; injection E as <-; [|reflexivity].
        destruct (set_kids_fields this (lkids this ++ [y])) as (_ & _ & _ & _ & _ & _ & ->).
        rewrite find_key_app. destruct (find_key k (lkids this)); [reflexivity|].
        unfold find_key. cbn [find]. destruct (Z.eqb_spec (lah y) k); [congruence|reflexivity].
  Qed.

  (** every step of a loop that ended was taken *)
  Lemma fold_any_reaches okids : forall this r x, NoDup (map lah okids) -> In x okids ->
    fold_res any_step okids this = Ok r ->
    exists this1 r1, find_key (lah x) (lkids this1) = find_key (lah x) (lkids this) /\ any_step x this1 = Ok r1.
  Proof.
    induction okids as [|y okids IH]; intros this r x ND Hx; [destruct Hx|]. cbn [fold_res].
    cbn [map] in ND. inversion ND as [|? ? N1 N2]; subst.
    destruct (any_step y this) as [r1|] eqn:E1; [|discriminate]. cbn [bind]. intro E.
    destruct Hx as [->|Hx]; [exists this, r1; auto|].
    destruct (IH r1 r x N2 Hx E) as (t1 & r2 & H1 & H2). exists t1, r2. split; [|assumption].
    rewrite H1. apply (any_step_other y); [assumption|]. intro Ek. apply N1. rewrite <- Ek. now apply in_map.
  Qed.

  (** the other document has font resources at a shared place, this one has not: IndexError *)
  Theorem C31_no_fonts_raises : forall s o p t x e, keyed o -> shared m s o p t x ->
    In e (lkids x) -> ltag e = ext_tag -> ~ is_blocked m e -> find_key (lah e) (lkids t) = None ->
    overlay o s = Raise IndexError.
  Proof.
    intros s o p t x e K Sh He Te Nb Nf.
    assert (forall r, overlay o s <> Ok r) as No.
    { induction Sh as [s o|s o k p c y t x Hc Hy Ny Nx Nh Sh IH]; intros r E; rewrite overlay_any in E.
      - destruct (fold_any_reaches _ _ _ e (ew_here _ _ K) He E) as (t1 & r1 & H1 & H2).
        unfold any_step in H2. apply not_blocked in Nb. rewrite Nb, Te, streq_refl in H2.
        unfold ext_step in H2. pose proof (key_index_spec e (lkids t1)) as Ki.
        destruct (key_index e (lkids t1)); [|discriminate]. destruct Ki as (u & _ & Ki). congruence.
      - pose proof (find_key_in _ _ _ Hy) as [Iy Ey].
        destruct (fold_any_reaches _ _ _ y (ew_here _ _ K) Iy E) as (t1 & r1 & H1 & H2).
        unfold any_step in H2. apply not_blocked in Ny. rewrite Ny in H2.
        destruct (streq_spec (ltag y) ext_tag) as [|_]; [contradiction|].
        unfold overlay_child in H2. pose proof (key_index_spec y (lkids t1)) as Ki.
        rewrite H1, Ey, Hc in Ki. destruct (key_index y (lkids t1)) as [i|]; [|discriminate].
        destruct Ki as (u & Hu & Ki). injection Ki as ->. rewrite Hu in H2.
        destruct (Z.eqb_spec (lch y) (lch u)); [congruence|].
        destruct (overlay y u) as [r2|] eqn:E2; [|discriminate].
        apply (IH (ew_kid _ _ _ K Iy) He Nf r2 eq_refl). }
    pose proof (proj1 (overlay_only_index o) s) as Oi. destruct (overlay o s) as [r|ex]; [exfalso; now apply (No r)|].
    cbn in Oi. now rewrite Oi.
  Qed.
End Overlay.
