(** C50: what the reading loop of Ldml keeps of a document. *)
From Coq Require Import String.
From Verif Require Import Py PyFacts M_LdmlBase M_TreeBuilder T_TreeBuilder.
Local Open Scope list_scope.

Lemma xnode_ind' (P : xnode -> Prop) :
  (forall t a x y k, Forall P k -> P (XNode t a x y k)) -> forall n, P n.
Proof.
  intro H. fix IH 1. intros [t a x y k]. apply H.
  induction k as [|n k IHk]; constructor; auto.
Qed.

(** the loop over the children, as a function of its own *)
Fixpoint kids_loop (up : bool) (ks : list xnode) (hd : bool) (acc : list cnode) (pending : list pystr)
  : res (list cnode * bool * list pystr) :=
  match ks with
  | [] => Ok (acc, hd, pending)
  | k :: ks' =>
      do r <- loop_el up false k pending;
      match r with
      | (Some c, p) => kids_loop up ks' (if up then hd else false) (acc ++ [c]) p
      | (None, p) => kids_loop up ks' (if streq (xtag k) comment_tag then hd else true) acc p
      end
  end.
Lemma loop_el_eq up top tag attrs text tail kids pending :
  loop_el up top (XNode tag attrs text tail kids) pending =
  if streq tag comment_tag then
    Ok (None, pending ++ [match dget streq attrs (lit "text") with Some t => t | None => [] end])
  else
    do r <- kids_loop up kids false [] [];
    let '(ks, hd, p) := r in
    let '(ks, p) := match p, ks with
                    | _ :: _, _ :: _ => (upd_last (set_after p) ks, [])
                    | _, _ => (ks, p)
                    end in
    let elem := CNode tag attrs text pending [] ks in
    let inherit := match text with Some t => streq t uparrow3 | None => false end in
    if negb up && (inherit || (hd && match ks with [] => true | _ => false end)) then
      if top then Raise AttributeError else Ok (None, p)
    else Ok (Some elem, p).
Proof.
  cbn [loop_el]. destruct (streq tag comment_tag); [reflexivity|].
  match goal with |- bind ?a ?f = bind ?b _ => assert (a = b) as ->; [|reflexivity] end.
  match goal with |- ?F kids false [] [] = _ =>
    assert (forall ks hd acc p, F ks hd acc p = kids_loop up ks hd acc p) as K; [|apply K] end.
  induction ks as [|k ks IH]; intros hd acc p; [reflexivity|].
  cbn [kids_loop]. destruct (loop_el up false k p) as [[[c|] q]|]; cbn [bind]; auto.
Qed.

(** the tree without comments *)
Fixpoint erase (c : cnode) : node :=
  match c with CNode t a x _ _ ks => Node t a x (map erase ks) end.
Lemma erase_after l ks : map erase (upd_last (set_after l) ks) = map erase ks.
Proof.
  induction ks as [|k ks IH]; [reflexivity|]. cbn [upd_last].
  destruct ks as [|k' ks]; cbn [map].
  - now destruct k.
  - f_equal. exact IH.
Qed.
Lemma upd_last_empty {A} (f : A -> A) l : upd_last f l = [] <-> l = [].
Proof.
  destruct l as [|x [|y l]]; cbn; split; congruence.
Qed.

(** ** Specification *)
(** [is_comment]: a comment of the document. [inherited]: the element says that its value comes
    from the parent locale, by the text of three up arrows, or has children (comments do not
    count) and all of them are inherited. *)
Definition is_comment (n : xnode) : Prop := xtag n = lit "!--".
Inductive inherited : xnode -> Prop :=
| inh_text t a tail ks :
    t <> lit "!--" -> inherited (XNode t a (Some uparrow3) tail ks)
| inh_kids t a x tail ks k0 :
    t <> lit "!--" -> In k0 ks -> ~ is_comment k0 ->
    (forall k, In k ks -> ~ is_comment k -> inherited k) ->
    inherited (XNode t a x tail ks).

(** [kept n c]: [c] is [n] without comments and without inherited elements. *)
Inductive kept : xnode -> node -> Prop :=
| kept_node t a x tail ks cs : kept_kids ks cs -> kept (XNode t a x tail ks) (Node t a x cs)
with kept_kids : list xnode -> list node -> Prop :=
| kk_nil : kept_kids [] []
| kk_comment k ks cs : is_comment k -> kept_kids ks cs -> kept_kids (k :: ks) cs
| kk_inherited k ks cs : inherited k -> kept_kids ks cs -> kept_kids (k :: ks) cs
| kk_keep k ks c cs : ~ is_comment k -> ~ inherited k -> kept k c -> kept_kids ks cs ->
    kept_kids (k :: ks) (c :: cs).

(** ** Proof *)
Lemma inherited_not_comment n : inherited n -> ~ is_comment n.
Proof. intros [t a tail ks H|t a x tail ks k0 H _ _ _]; exact H. Qed.
Lemma comment_dec n : {is_comment n} + {~ is_comment n}.
Proof.
  unfold is_comment. destruct (streq_spec (xtag n) (lit "!--")); [left|right]; assumption.
Qed.

(** what the loop does with one element *)
Definition el_ok (n : xnode) : Prop := forall top p,
  (is_comment n -> exists p', loop_el false top n p = Ok (None, p'))
  /\ (inherited n -> if top then loop_el false top n p = Raise AttributeError
                      else exists p', loop_el false top n p = Ok (None, p'))
  /\ (~ is_comment n -> ~ inherited n ->
      exists c p', loop_el false top n p = Ok (Some c, p') /\ kept n (erase c)).

Lemma kids_inherited_dec ks :
  Forall (fun n => inherited n \/ ~ inherited n) ks ->
  (exists k, In k ks /\ ~ is_comment k /\ ~ inherited k)
  \/ (forall k, In k ks -> ~ is_comment k -> inherited k).
Proof.
  induction 1 as [|k ks Hk IH IHks]; [right; intros ? []|].
  destruct IHks as [(k' & H1 & H2)|Hall]; [left; exists k'; cbn; tauto|].
  destruct (comment_dec k) as [Hc|Hc].
  - right. intros k' [<-|H'] H''; [contradiction|auto].
  - destruct Hk as [Hk|Hk]; [|left; exists k; cbn; tauto].
    right. intros k' [<-|H'] H''; auto.
Qed.
Lemma kids_comment_dec ks :
  (exists k, In k ks /\ ~ is_comment k) \/ (forall k, In k ks -> is_comment k).
Proof.
  induction ks as [|k ks IH]; [right; intros ? []|].
  destruct (comment_dec k); [|left; exists k; cbn; tauto].
  destruct IH as [(k' & H1 & H2)|H]; [left; exists k'; cbn; tauto|].
  right. intros k' [<-|H']; auto.
Qed.
Lemma inherited_dec n : inherited n \/ ~ inherited n.
Proof.
  induction n as [t a x y ks IH] using xnode_ind'.
  destruct (streq_spec t (lit "!--")) as [->|Ht].
  { right. intro H. now apply (inherited_not_comment _ H). }
  assert (x = Some uparrow3 \/ x <> Some uparrow3) as [->|Hx].
  { destruct x as [x|]; [|right; discriminate].
    destruct (streq_spec x uparrow3) as [->|Hx]; [auto|right; congruence]. }
  { left. now constructor. }
  destruct (kids_inherited_dec ks IH) as [(k & Hk & Hc & Hi)|Hall].
  { right. intro H. inversion H; subst; [congruence|auto]. }
  destruct (kids_comment_dec ks) as [(k & Hk & Hc)|Hn].
  { left. eapply inh_kids; eauto. }
  right. intro H. inversion H as [|? ? ? ? ? k0 _ Hin Hc Hk]; subst; [congruence|]. auto.
Qed.

Lemma kids_loop_ok ks : Forall el_ok ks -> forall hd acc p,
  exists cs hd' p', kids_loop false ks hd acc p = Ok (acc ++ cs, hd', p')
  /\ kept_kids ks (map erase cs)
  /\ (cs = [] ->
      (hd' = true <-> hd = true \/ exists k, In k ks /\ ~ is_comment k)
      /\ forall k, In k ks -> ~ is_comment k -> inherited k)
  /\ (cs <> [] -> exists k, In k ks /\ ~ is_comment k /\ ~ inherited k).
Proof.
  induction 1 as [|k ks Hk H IH]; intros hd acc p; cbn [kids_loop].
  - exists [], hd, p. rewrite app_nil_r. split; [reflexivity|]. split; [constructor|].
    split; [|congruence]. intros _. split; [|intros ? []]. split; [auto|].
    intros [?|(? & [] & _)]; assumption.
  - destruct (Hk false p) as (H1 & H2 & H3).
    destruct (comment_dec k) as [Hc|Hc]; [|destruct (inherited_dec k) as [Hi|Hi]].
    + destruct (H1 Hc) as (p1 & ->). cbn [bind].
      replace (streq (xtag k) comment_tag) with true
        by (symmetry; apply streq_true; exact Hc).
      destruct (IH hd acc p1) as (cs & hd' & p' & -> & HK & HE & HN).
      exists cs, hd', p'. split; [reflexivity|]. split; [now constructor|]. split.
      * intros E. destruct (HE E) as [HA HB]. split.
        -- rewrite HA. split; intros [?|(k' & Hin & Hc')]; auto; right; exists k'; cbn; try tauto.
           cbn in Hin. destruct Hin as [<-|Hin]; [contradiction|auto].
        -- intros k' [<-|Hin]; [contradiction|auto].
      * intro E. destruct (HN E) as (k' & ? & ?). exists k'. cbn. tauto.
    + destruct (H2 Hi) as (p1 & ->). cbn [bind].
      replace (streq (xtag k) comment_tag) with false
        by (symmetry; apply streq_false; exact Hc).
      destruct (IH true acc p1) as (cs & hd' & p' & -> & HK & HE & HN).
      exists cs, hd', p'. split; [reflexivity|]. split; [now apply kk_inherited|]. split.
      * intros E. destruct (HE E) as [HA HB]. split.
        -- split; intros _; [right; exists k; cbn; tauto|apply HA; auto].
        -- intros k' [<-|Hin]; auto.
      * intro E. destruct (HN E) as (k' & ? & ?). exists k'. cbn. tauto.
    + destruct (H3 Hc Hi) as (c & p1 & -> & Hkept). cbn [bind].
      destruct (IH false (acc ++ [c]) p1) as (cs & hd' & p' & -> & HK & HE & HN).
      exists (c :: cs), hd', p'. split; [now rewrite <- app_assoc|].
      split; [now constructor|]. split; [discriminate|].
      intros _. exists k. cbn. tauto.
Qed.

Lemma loop_el_ok n : el_ok n.
Proof.
  induction n as [t a x y ks IH] using xnode_ind'. intros top p. rewrite loop_el_eq.
  destruct (streq_spec t comment_tag) as [->|Ht].
  { split; [eauto|]. split.
    - intro H. destruct (inherited_not_comment _ H); reflexivity.
    - intro H. now destruct H. }
  split; [intro; contradiction|].
  destruct (kids_loop_ok ks IH false [] []) as (cs & hd & p1 & -> & HK & HE & HN).
  cbn [bind app].
  set (pr := match p1, cs with _ :: _, _ :: _ => (upd_last (set_after p1) cs, []) | _, _ => (cs, p1) end).
  assert (map erase (fst pr) = map erase cs /\ (fst pr = [] <-> cs = [])) as [Em En].
  { subst pr. destruct p1, cs; cbn [fst]; try (split; [reflexivity|tauto]).
    split; [apply erase_after|apply upd_last_empty]. }
  destruct pr as [cs' p2]. cbn [fst] in Em, En.
  assert (negb false && (match x with Some t0 => streq t0 uparrow3 | None => false end
            || hd && match cs' with [] => true | _ => false end) = true
          <-> inherited (XNode t a x y ks)) as D.
  { cbn [negb andb]. rewrite orb_true_iff, andb_true_iff. split.
    - intros [Hx|[Hh Hc]].
      + destruct x as [x|]; [|discriminate]. apply streq_true in Hx. subst. now constructor.
      + destruct cs'; [|discriminate]. assert (cs = []) as E by tauto.
        destruct (HE E) as [HA HB]. apply HA in Hh as [|(k & Hin & Hk)]; [discriminate|].
        eapply inh_kids; eauto.
    - intro H. inversion H as [|? ? ? ? ? k0 _ Hin Hc Hall]; subst.
      + left. apply streq_refl.
      + right. destruct cs as [|c cs].
        * destruct (HE eq_refl) as [HA HB]. split; [apply HA; eauto|].
          now rewrite (proj2 En eq_refl).
        * destruct HN as (k & Hk & Hc' & Hi); [discriminate|]. exfalso. auto. }
  destruct (negb false && _) eqn:Ed; split.
  - intros _. destruct top; eauto.
  - intros _ Hn. destruct Hn. now apply D.
  - intro H. apply D in H. discriminate.
  - intros _ _. do 2 eexists. split; [reflexivity|]. cbn [erase]. constructor. now rewrite Em.
Qed.

(** C50: reading (in the default mode) keeps exactly the elements that are not inherited, with
    their tags, attributes, text and order; a document whose root is itself inherited cannot
    be read. *)
Theorem C50_reading_keeps n p :
  ~ is_comment n -> ~ inherited n ->
  exists c, read_loop false n p = Ok c /\ kept n (erase c).
Proof.
  intros Hc Hi. destruct (loop_el_ok n true p) as (_ & _ & H).
  destruct (H Hc Hi) as (c & p' & E & K). unfold read_loop. rewrite E. cbn. eauto.
Qed.
Theorem C50_all_inherited n p :
  inherited n -> read_loop false n p = Raise AttributeError.
Proof.
  intros Hi. destruct (loop_el_ok n true p) as (_ & H & _). specialize (H Hi). cbn in H.
  unfold read_loop. now rewrite H.
Qed.
(** [kept] determines the tree *)
Scheme kept_ind2 := Induction for kept Sort Prop
  with kept_kids_ind2 := Induction for kept_kids Sort Prop.
Theorem C50_kept_unique n c c' : kept n c -> kept n c' -> c = c'.
Proof.
  intro H. revert c'.
  induction H as [t a x tail ks cs H IH| |k ks cs Hc H IH|k ks cs Hi H IH|k ks c cs Hc Hi H IH H' IH']
    using kept_ind2 with (P0 := fun ks cs _ => forall cs', kept_kids ks cs' -> cs = cs').
  - intros c' H'. inversion H'; subst. f_equal. auto.
  - intros cs' H'. now inversion H'.
  - intros cs' H'. inversion H'; subst; auto; try contradiction.
  - intros cs' H'. inversion H'; subst; auto; try contradiction.
  - intros cs' H2. inversion H2; subst; try contradiction. f_equal; auto.
Qed.

(** With uparrows=True nothing but the comments is taken out, and no comment is lost except
    those after which no element starts or ends with a child. *)
Fixpoint plain (n : xnode) : node :=
  match n with
  | XNode t a x _ ks =>
      Node t a x
        (flat_map (fun k => if streq (xtag k) (lit "!--") then [] else [plain k]) ks)
  end.
(** the comments of a document in document order, before and after reading *)
Definition comment_text (n : xnode) : pystr :=
  match dget streq (xattrs n) (lit "text") with Some t => t | None => [] end.
Fixpoint comments_in (n : xnode) : list pystr :=
  match n with
  | XNode t a x y ks =>
      if streq t (lit "!--") then [comment_text (XNode t a x y ks)] else flat_map comments_in ks
  end.
Fixpoint comments_of (c : cnode) : list pystr :=
  match c with
  | CNode _ _ _ before after ks => before ++ flat_map comments_of ks ++ after
  end.

Definition no_after (c : cnode) : Prop := let '(CNode _ _ _ _ after _) := c in after = [].
Lemma comments_after l ks : ks <> [] -> Forall no_after ks ->
  flat_map comments_of (upd_last (set_after l) ks) = flat_map comments_of ks ++ l.
Proof.
  induction ks as [|k ks IH]; [congruence|]. intros _ F. inversion F; subst. cbn [upd_last].
  destruct ks as [|k' ks]; cbn [flat_map].
  - destruct k as [t a x b af kk]; cbn in *. subst. rewrite !app_nil_r. now rewrite <- app_assoc.
  - rewrite <- app_assoc. f_equal. apply IH; [discriminate|assumption].
Qed.

Definition el_up_ok (n : xnode) : Prop := forall top p,
  if streq (xtag n) (lit "!--") then loop_el true top n p = Ok (None, p ++ comments_in n)
  else exists c p', loop_el true top n p = Ok (Some c, p') /\ erase c = plain n /\ no_after c
       /\ comments_of c ++ p' = p ++ comments_in n.
Lemma kids_up_ok ks : Forall el_up_ok ks -> forall acc p, exists cs p',
  kids_loop true ks false acc p = Ok (acc ++ cs, false, p')
  /\ map erase cs = flat_map (fun k => if streq (xtag k) (lit "!--") then [] else [plain k]) ks
  /\ Forall no_after cs
  /\ flat_map comments_of cs ++ p' = p ++ flat_map comments_in ks.
Proof.
  induction 1 as [|k ks Hk H IH]; intros acc p; cbn [kids_loop flat_map].
  - exists [], p. rewrite !app_nil_r. auto.
  - specialize (Hk false p). destruct (streq (xtag k) (lit "!--")) eqn:Ec.
    + rewrite Hk. cbn [bind]. change comment_tag with (lit "!--"). rewrite Ec.
      destruct (IH acc (p ++ comments_in k)) as (cs & p' & -> & E1 & E2 & E3).
      exists cs, p'. rewrite <- app_assoc in E3. auto.
    + destruct Hk as (c & p1 & -> & E1 & E2 & E3). cbn [bind].
      destruct (IH (acc ++ [c]) p1) as (cs & p' & -> & E4 & E5 & E6).
      exists (c :: cs), p'. split; [now rewrite <- app_assoc|].
      split; [cbn; now rewrite E1, E4|]. split; [now constructor|].
      cbn [flat_map]. rewrite <- app_assoc, E6, app_assoc, E3. now rewrite <- app_assoc.
Qed.
Lemma loop_up_ok n : el_up_ok n.
Proof.
  induction n as [t a x y ks IH] using xnode_ind'. intros top p. rewrite loop_el_eq.
  cbn [xtag comments_in]. change comment_tag with (lit "!--").
  destruct (streq t (lit "!--")) eqn:Et; [reflexivity|].
  destruct (kids_up_ok ks IH [] []) as (cs & p' & -> & E1 & E2 & E3). cbn [bind app negb andb] in *.
  destruct p' as [|c0 p'], cs as [|k cs];
    (eexists; eexists; split; [reflexivity|]; split; [cbn [erase plain]; now rewrite ?erase_after, E1|];
     split; [reflexivity|]); cbn [comments_of]; rewrite <- !app_assoc; f_equal.
  - exact E3.
  - cbn [app]. exact E3.
  - cbn [app] in *. exact E3.
  - rewrite comments_after by (auto; discriminate). rewrite !app_nil_r. exact E3.
Qed.
Theorem C50_uparrows n p :
  ~ is_comment n ->
  exists c left, read_loop true n p = Ok c /\ erase c = plain n
    /\ comments_of c ++ left = p ++ comments_in n.
Proof.
  intro Hc. pose proof (loop_up_ok n true p) as H.
  destruct (streq_spec (xtag n) (lit "!--")); [contradiction|].
  destruct H as (c & p' & E1 & E2 & _ & E3). exists c, p'. unfold read_loop. rewrite E1. auto.
Qed.

(** Text that follows a comment is lost: the builder hangs it on the comment, as its tail. *)
Theorem C50_text_after_comment_refuted t a before c s :
  t <> lit "!--" ->
  before <> uparrow3 ->
  read_loop false
    (item_tree (Child t a [Data before; Child (lit "!--") [(lit "text", c)] []; Data s])) []
  = Ok (CNode t a (Some before) [] [] []).
Proof.
  intros H Hb. cbn [item_tree fold_left add_item fst snd more app].
  unfold read_loop. rewrite loop_el_eq.
  rewrite (proj2 (streq_false t comment_tag)) by exact H.
  cbn. rewrite (proj2 (streq_false before uparrow3)) by assumption. reflexivity.
Qed.

Example C50_example :
  let arrow := Child (lit "x") [] [Data uparrow3] in
  let doc := item_tree (Child (lit "ldml") []
     [Child (lit "!--") [(lit "text", lit "hello")] [];
      Child (lit "a") [] [arrow; arrow]; Child (lit "b") [] [arrow; Child (lit "y") [] []];
      Child (lit "c") [] []]) in
  ~ is_comment doc /\ ~ inherited doc
  /\ read_loop false doc []
     = Ok (CNode (lit "ldml") [] None [] []
             [CNode (lit "b") [] None [] [] [CNode (lit "y") [] None [] [] []];
              CNode (lit "c") [] None [] [] []])
  /\ inherited (item_tree arrow).
Proof.
  cbv zeta. split; [discriminate|]. split; [|split; [vm_compute; reflexivity|]].
  - intro H. apply (C50_all_inherited _ []) in H. vm_compute in H. discriminate.
  - apply (inh_text (lit "x") [] None []). discriminate.
Qed.
