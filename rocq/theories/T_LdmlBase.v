(** C19, C20, C24, C30: protection of text, namespaced names, draft levels, file search. *)
From Coq Require Import String.
From Verif Require Import Py PyFacts M_LdmlBase.
Local Open Scope list_scope.

(** * C19. Specification: how an XML reader expands the five predefined entities. *)
Definition predefined : list (pystr * N) :=
  [ (lit "&amp;", 38%N); (lit "&lt;", 60%N); (lit "&gt;", 62%N);
    (lit "&quot;", 34%N); (lit "&apos;", 39%N) ].
Inductive expands : pystr -> pystr -> Prop :=
| exp_nil : expands [] []
| exp_char c s t : c <> 38%N -> expands s t -> expands (c :: s) (c :: t)
| exp_entity e c s t : In (e, c) predefined -> expands s t -> expands (e ++ s) (c :: t).

(** the tables seen as a case analysis *)
Lemma protect_cases c :
  (exists e, dget N.eqb attribprotect c = Some e /\ In (e, c) predefined)
  \/ (dget N.eqb attribprotect c = None /\ c <> 38%N /\ c <> 60%N /\ c <> 62%N
      /\ c <> 34%N /\ c <> 39%N).
Proof.
  cbn [attribprotect elementprotect app dget].
  repeat match goal with
  | |- context [N.eqb c ?k] => destruct (N.eqb_spec c k); [subst; left; eexists; split;
      [reflexivity|cbn; tauto]|]
  end. right. tauto.
Qed.
Lemma protect_cases_el c :
  (exists e, dget N.eqb elementprotect c = Some e /\ In (e, c) predefined)
  \/ (dget N.eqb elementprotect c = None /\ c <> 38%N /\ c <> 60%N /\ c <> 62%N).
Proof.
  cbn [elementprotect app dget].
  repeat match goal with
  | |- context [N.eqb c ?k] => destruct (N.eqb_spec c k); [subst; left; eexists; split;
      [reflexivity|cbn; tauto]|]
  end. right. tauto.
Qed.

(** entities start with an ampersand and none is a prefix of another *)
Lemma entity_inj e c s e' c' s' :
  In (e, c) predefined -> In (e', c') predefined -> e ++ s = e' ++ s' -> c = c' /\ s = s'.
Proof.
  intros H H' E. unfold predefined in H, H'. cbn in H, H'.
  repeat match goal with
  | H : _ \/ _ |- _ => destruct H as [H|H]
  | H : False |- _ => destruct H
  end;
  repeat match goal with H : (_, _) = (_, _) |- _ => injection H as; subst end;
  cbn in E; first [discriminate E | injection E as; subst; auto].
Qed.
Lemma entity_amp e c : In (e, c) predefined -> exists r, e = 38%N :: r.
Proof.
  intro H. cbn in H.
  repeat match goal with
  | H : _ \/ _ |- _ => destruct H as [H|H]
  | H : False |- _ => destruct H
  end; injection H as; subst; cbn; eauto.
Qed.

Lemma expands_fun s t : expands s t -> forall t', expands s t' -> t' = t.
Proof.
  induction 1 as [|c s t Hc H IH|e c s t Hin H IH]; intros t' H'.
  - inversion H' as [| |e c s t0 Hin]; auto.
    destruct (entity_amp _ _ Hin) as [r ->]. discriminate.
  - inversion H' as [|c0 s0 t0 Hc0 H0|e c0 s0 t0 Hin H0 E]; subst.
    + f_equal; auto.
    + destruct (entity_amp _ _ Hin) as [r ->]. injection E as E _. congruence.
  - inversion H' as [E|c0 s0 t0 Hc0 H0 E|e0 c0 s0 t0 Hin0 H0 E]; subst.
    + destruct (entity_amp _ _ Hin) as [r ->]. discriminate.
    + destruct (entity_amp _ _ Hin) as [r ->]. injection E as E _. congruence.
    + destruct (entity_inj _ _ _ _ _ _ Hin0 Hin E). subst. f_equal. auto.
Qed.

Lemma expands_protect_attr s : expands (protect attribprotect s) s.
Proof.
  induction s as [|c s IH]; [constructor|]. unfold protect in *. cbn [flat_map].
  destruct (protect_cases c) as [(e & -> & Hin)|(-> & Hc)].
  - now apply exp_entity.
  - cbn. apply exp_char; tauto.
Qed.
Lemma expands_protect_el s : expands (protect elementprotect s) s.
Proof.
  induction s as [|c s IH]; [constructor|]. unfold protect in *. cbn [flat_map].
  destruct (protect_cases_el c) as [(e & -> & Hin)|(-> & Hc)].
  - now apply exp_entity.
  - cbn. apply exp_char; tauto.
Qed.

(** C19: a reader gets exactly the string that was protected, from attribute values and from
    element text. *)
Theorem C19_attribute s t : expands (protect attribprotect s) t <-> t = s.
Proof.
  split.
  - intro H. exact (expands_fun _ _ (expands_protect_attr s) _ H).
  - intros ->. apply expands_protect_attr.
Qed.
Theorem C19_element s t : expands (protect elementprotect s) t <-> t = s.
Proof.
  split.
  - intro H. exact (expands_fun _ _ (expands_protect_el s) _ H).
  - intros ->. apply expands_protect_el.
Qed.

(** no markup character is left, and an ampersand is always followed by the rest of an
    entity *)
Theorem C19_no_markup s :
  (forall c, In c (protect attribprotect s) -> ~ In c (lit "<>""'"))
  /\ (forall c, In c (protect elementprotect s) -> ~ In c (lit "<>")).
Proof.
  split; intros c H; unfold protect in H; apply in_flat_map in H as (x & _ & H).
  - destruct (protect_cases x) as [(e & E & Hin)|(E & Hx)]; rewrite E in H.
    + intro Hc. cbn in Hin, Hc.
      repeat match goal with
      | H : _ \/ _ |- _ => destruct H as [H|H]
      | H : False |- _ => destruct H
      end; injection Hin as; subst; cbn in H; intuition discriminate.
    + destruct H as [->|[]]. cbn. intuition congruence.
  - destruct (protect_cases_el x) as [(e & E & Hin)|(E & Hx)]; rewrite E in H.
    + intro Hc. cbn in Hin, Hc.
      repeat match goal with
      | H : _ \/ _ |- _ => destruct H as [H|H]
      | H : False |- _ => destruct H
      end; injection Hin as; subst; cbn in H; intuition discriminate.
    + destruct H as [->|[]]. cbn. intuition congruence.
Qed.
Corollary C19_injective s s' :
  protect attribprotect s = protect attribprotect s'
  \/ protect elementprotect s = protect elementprotect s' -> s = s'.
Proof.
  intros [E|E].
  - apply C19_attribute. rewrite <- E. apply expands_protect_attr.
  - apply C19_element. rewrite <- E. apply expands_protect_el.
Qed.
Example C19_example :
  protect attribprotect (lit "a<b&'c'") = lit "a&lt;b&amp;&apos;c&apos;"
  /\ expands (lit "a&lt;b&amp;&apos;c&apos;") (lit "a<b&'c'").
Proof.
  split; [reflexivity|].
  change (lit "a&lt;b&amp;&apos;c&apos;") with (protect attribprotect (lit "a<b&'c'")).
  now apply C19_attribute.
Qed.

(** * C20 *)
Lemma partition1_app c a b : ~ In c a -> partition1 c (a ++ c :: b) = Some (a, b).
Proof.
  induction a as [|x a IH]; cbn; intro H.
  - now rewrite N.eqb_refl.
  - destruct (N.eqb_spec x c); [tauto|]. rewrite IH by tauto. reflexivity.
Qed.
Lemma partition1_Some c s a b : partition1 c s = Some (a, b) -> s = a ++ c :: b /\ ~ In c a.
Proof.
  revert a b. induction s as [|x s IH]; cbn; intros a b H; [discriminate|].
  destruct (N.eqb_spec x c).
  - injection H as <- <-. subst. auto.
  - destruct (partition1 c s) as [[a' b']|]; [|discriminate]. injection H as <- <-.
    destruct (IH _ _ eq_refl) as [-> Hn]. split; [reflexivity|]. cbn. intuition.
Qed.
Lemma partition1_None c s : partition1 c s = None <-> ~ In c s.
Proof.
  induction s as [|x s IH]; cbn; [tauto|].
  destruct (N.eqb_spec x c).
  - split; [discriminate|tauto].
  - destruct (partition1 c s) as [[a b]|]; [|tauto].
    split; [discriminate|]. intro H. exfalso.
    assert (Some (a, b) = @None (pystr * pystr)) by (apply IH; tauto). discriminate.
Qed.

Lemma key_of_In ns u p : NoDup (map snd ns) -> In (u, p) ns -> key_of ns p = Some u.
Proof.
  induction ns as [|[k v] ns IH]; cbn; [tauto|]. intros Hnd [H|H].
  - injection H as -> ->. now rewrite streq_refl.
  - inversion Hnd as [|? ? Hv Hnd']; subst.
    destruct (streq_spec p v) as [->|]; [|auto].
    destruct Hv. apply in_map_iff. now exists (u, v).
Qed.
Lemma key_of_None ns p : ~ In p (map snd ns) -> key_of ns p = None.
Proof.
  induction ns as [|[k v] ns IH]; cbn; intro H; [reflexivity|].
  destruct (streq_spec p v) as [->|]; [tauto|]. apply IH. tauto.
Qed.

(** A usable table: no uri and no prefix occurs twice, prefixes are not empty and have no
    colon, uris have no closing brace. *)
Definition ns_table (ns : list (pystr * pystr)) : Prop :=
  NoDup (map fst ns) /\ NoDup (map snd ns)
  /\ forall u p, In (u, p) ns -> p <> [] /\ ~ In 58%N p /\ ~ In 125%N u.

Lemma reverse_localns_declared ns u p name :
  ns_table ns -> In (u, p) ns ->
  reverse_localns ns (p ++ 58%N :: name) = 123%N :: u ++ 125%N :: name.
Proof.
  intros (_ & Hp & Hok) Hin. destruct (Hok _ _ Hin) as (Hne & Hc & _).
  unfold reverse_localns. rewrite partition1_app by assumption.
  rewrite (key_of_In _ _ _ Hp Hin). destruct p; [congruence|reflexivity].
Qed.
Lemma localns_declared ns u p name :
  ns_table ns -> In (u, p) ns ->
  localns ns (123%N :: u ++ 125%N :: name) = Ok (p ++ 58%N :: name).
Proof.
  intros (Hu & Hp & Hok) Hin. destruct (Hok _ _ Hin) as (Hne & _ & Hb).
  unfold localns. rewrite N.eqb_refl. rewrite partition1_app by assumption.
  rewrite (dget_NoDup_In streq streq_spec _ _ _ Hu Hin).
  destruct p; [congruence|reflexivity].
Qed.

(** C20: for a declared prefix the two conversions undo each other. *)
Theorem C20_declared ns u p name :
  ns_table ns -> In (u, p) ns ->
  let short := p ++ lit ":" ++ name in
  let long := lit "{" ++ u ++ lit "}" ++ name in
  reverse_localns ns short = long /\ localns ns long = Ok short.
Proof.
  intros H Hin. split.
  - exact (reverse_localns_declared _ _ _ name H Hin).
  - exact (localns_declared _ _ _ name H Hin).
Qed.

(** names with an undeclared prefix, or with no prefix, are left alone in both directions *)
Theorem C20_undeclared ns p name :
  ~ In 58%N p -> ~ In p (map snd ns) ->
  reverse_localns ns (p ++ lit ":" ++ name) = p ++ lit ":" ++ name.
Proof.
  intros Hc Hn. unfold reverse_localns. cbn [lit]. change (lit ":" ++ name) with (58%N :: name).
  rewrite partition1_app by assumption. rewrite key_of_None by assumption.
  destruct p; reflexivity.
Qed.
Theorem C20_no_prefix ns name :
  ~ In 58%N name -> reverse_localns ns name = name.
Proof. intro H. unfold reverse_localns. now apply partition1_None in H as ->. Qed.
Theorem C20_undeclared_uri ns u name :
  ~ In 125%N u -> ~ In u (map fst ns) ->
  localns ns (lit "{" ++ u ++ lit "}" ++ name) = Ok (lit "{" ++ u ++ lit "}" ++ name).
Proof.
  intros Hc Hn. change (lit "{" ++ u ++ lit "}" ++ name) with (123%N :: u ++ 125%N :: name).
  unfold localns. rewrite N.eqb_refl, partition1_app by assumption.
  replace (dget streq ns u) with (@None pystr); [reflexivity|].
  symmetry. now apply (dget_None streq streq_spec).
Qed.
Theorem C20_plain_name ns c name :
  c <> 123%N -> localns ns (c :: name) = Ok (c :: name).
Proof. intro H. unfold localns. destruct (N.eqb_spec c 123); congruence. Qed.

(** The writer's variant agrees with [localns] on declared namespaces and reports the prefix
    and the uri, which is what the xmlns attribute is written from. *)
Theorem C20_writer ns cnt u p name :
  ns_table ns -> In (u, p) ns ->
  localisens ns cnt (lit "{" ++ u ++ lit "}" ++ name) = Ok (cnt, (p ++ lit ":" ++ name, p, Some u)).
Proof.
  intros (Hu & Hp & Hok) Hin. destruct (Hok _ _ Hin) as (Hne & _ & Hb).
  change (lit "{" ++ u ++ lit "}" ++ name) with (123%N :: u ++ 125%N :: name).
  unfold localisens. rewrite N.eqb_refl. rewrite partition1_app by assumption.
  rewrite (dget_NoDup_In streq streq_spec _ _ _ Hu Hin).
  destruct p; [congruence|reflexivity].
Qed.
(** For an undeclared namespace it drops the namespace from the name it writes: two names
    that differ only there are written alike. *)
Theorem C20_writer_undeclared_refuted ns cnt u u' name :
  ~ In 125%N u -> ~ In u (map fst ns) -> ~ In 125%N u' -> ~ In u' (map fst ns) ->
  exists q q',
    localisens ns cnt (lit "{" ++ u ++ lit "}" ++ name) = Ok (S cnt, (name, q, Some u))
    /\ localisens ns cnt (lit "{" ++ u' ++ lit "}" ++ name) = Ok (S cnt, (name, q', Some u')).
Proof.
  assert (forall u, ~ In 125%N u -> ~ In u (map fst ns) ->
    localisens ns cnt (lit "{" ++ u ++ lit "}" ++ name)
    = Ok (S cnt, (name, lit "ns" ++ decstr (S cnt), Some u))) as K.
  { intros v Hc Hn. change (lit "{" ++ v ++ lit "}" ++ name) with (123%N :: v ++ 125%N :: name).
    unfold localisens. rewrite N.eqb_refl, partition1_app by assumption.
    replace (dget streq ns v) with (@None pystr); [reflexivity|].
    symmetry. now apply (dget_None streq streq_spec). }
  intros. eexists; eexists. split; apply K; assumption.
Qed.

Definition basenamespaces : list (pystr * pystr) :=
  [ (silns, lit "sil"); (lit "http://www.w3.org/XML/1998/namespace", lit "xml") ].
Example C20_example :
  ns_table basenamespaces
  /\ reverse_localns basenamespaces (lit "sil:font") = siltag (lit "font")
  /\ localns basenamespaces (siltag (lit "font")) = Ok (lit "sil:font").
Proof.
  split; [|split; reflexivity].
  split; [|split].
  - repeat constructor; cbn; intuition discriminate.
  - repeat constructor; cbn; intuition discriminate.
  - intros u p [H|[H|[]]]; injection H as <- <-; repeat split;
      try discriminate; cbn; intuition discriminate.
Qed.

(** * C24 *)
Lemma rating_index i d n : nth_error alldrafts i = Some d -> rating (Some d) n = i.
Proof.
  do 7 (destruct i as [|i]; [intro H; injection H as <-; reflexivity|]).
  intro H. destruct i; discriminate.
Qed.
Lemma draftratings_None d : ~ In d alldrafts -> dget streq draftratings d = None.
Proof.
  intro H. apply (dget_None streq streq_spec). exact H.
Qed.
Lemma draftratings_Some d : In d alldrafts -> exists i, i <= 6 /\ nth_error alldrafts i = Some d
  /\ dget streq draftratings d = Some i.
Proof.
  intro H. cbn in H.
  repeat match goal with H : _ \/ _ |- _ => destruct H as [H|H] end; [..|destruct H]; subst;
  [exists 0|exists 1|exists 2|exists 3|exists 4|exists 5|exists 6];
  (split; [lia|split; reflexivity]).
Qed.
Lemma rating_unknown d n : ~ In d alldrafts -> rating (Some d) n = n.
Proof. intro H. unfold rating. now rewrite draftratings_None. Qed.
Lemma rating_known_le d n : In d alldrafts -> rating (Some d) n <= 6.
Proof. intro H. destruct (draftratings_Some d H) as (i & Hi & _ & E). unfold rating. now rewrite E. Qed.

(** The draft names in order, best first: this is the specification of the ranking. *)
Theorem C24_known dd default i d :
  nth_error
    [ lit "approved"; lit "contributed"; lit "provisional"; lit "unconfirmed";
      lit "tentative"; lit "generated"; lit "suspect" ] i = Some d ->
  get_draft dd (Some d) default = Ok i.
Proof. intro H. unfold get_draft. now rewrite (rating_index i d 5 H). Qed.
Theorem C24_unknown dd default d :
  ~ In d alldrafts -> get_draft dd (Some d) default = get_draft dd (Some (lit "generated")) default.
Proof. intro H. unfold get_draft. now rewrite (rating_unknown _ _ H). Qed.
Theorem C24_missing_known_default dd d :
  In dd alldrafts -> In d alldrafts ->
  get_draft dd None (Some d) = get_draft dd (Some d) None.
Proof.
  intros H Hd. destruct (draftratings_Some dd H) as (i & _ & _ & E).
  destruct (draftratings_Some d Hd) as (j & _ & _ & E').
  unfold get_draft, rating. now rewrite E, E'.
Qed.
Theorem C24_missing dd default :
  In dd alldrafts -> (forall d, default = Some d -> ~ In d alldrafts) ->
  get_draft dd None default = get_draft dd (Some dd) None.
Proof.
  intros H Hd. destruct (draftratings_Some dd H) as (i & _ & _ & E).
  unfold get_draft. rewrite E.
  destruct default as [d|].
  - rewrite (rating_unknown d) by auto. unfold rating. now rewrite E.
  - unfold rating. now rewrite E.
Qed.
Theorem C24_bounds dd draft default :
  In dd alldrafts -> exists n, get_draft dd draft default = Ok n /\ n <= 6.
Proof.
  intro H. destruct (draftratings_Some dd H) as (i & Hi & _ & E).
  unfold get_draft. rewrite E. destruct draft as [d|].
  - eexists; split; [reflexivity|].
    destruct (in_dec (list_eq_dec N.eq_dec) d alldrafts) as [Hin|Hn].
    + now apply rating_known_le.
    + rewrite rating_unknown by assumption. lia.
  - eexists; split; [reflexivity|]. destruct default as [d|]; [|exact Hi].
    destruct (in_dec (list_eq_dec N.eq_dec) d alldrafts) as [Hin|Hn].
    + now apply rating_known_le.
    + now rewrite rating_unknown.
Qed.
(** The document default is itself read from the file: with an unknown name there every
    question about an element without draft fails. *)
Theorem C24_unknown_document_default_refuted dd default :
  ~ In dd alldrafts -> get_draft dd None default = Raise KeyError.
Proof. intro H. unfold get_draft. now rewrite draftratings_None. Qed.
Example C24_example :
  get_draft (lit "unconfirmed") (Some (lit "approved")) None = Ok 0
  /\ get_draft (lit "unconfirmed") (Some (lit "draft")) None = Ok 5
  /\ get_draft (lit "unconfirmed") None None = Ok 3
  /\ In (lit "unconfirmed") alldrafts /\ ~ In (lit "draft") alldrafts.
Proof. repeat split; cbn; intuition discriminate. Qed.

(** * C30 *)

(** [f] is the first name in the list for which a file exists. *)
Definition first_existing (ex : pystr -> bool) (names : list pystr) (r : option pystr) : Prop :=
  match r with
  | Some f => exists before after, names = before ++ f :: after /\ ex f = true
                /\ Forall (fun g => ex g = false) before
  | None => Forall (fun g => ex g = false) names
  end.
Lemma first_existing_app ex a b r :
  Forall (fun g => ex g = false) a -> first_existing ex b r -> first_existing ex (a ++ b) r.
Proof.
  intros Ha H. destruct r as [f|]; cbn in *.
  - destruct H as (bf & af & -> & Hf & Hb). exists (a ++ bf), af.
    split; [now rewrite <- app_assoc|]. split; [assumption|]. apply Forall_app. auto.
  - apply Forall_app. auto.
Qed.
Lemma first_existing_more ex a b f :
  first_existing ex a (Some f) -> first_existing ex (a ++ b) (Some f).
Proof.
  intros (bf & af & -> & Hf & Hb). exists bf, (af ++ b).
  split; [now rewrite <- app_assoc|]. auto.
Qed.
Lemma getldml_dirs_spec ex p fn dirs :
  first_existing ex (map (fun d => path_join (path_join d p) fn) dirs) (getldml_dirs ex p fn dirs).
Proof.
  induction dirs as [|d dirs IH]; cbn [getldml_dirs map].
  - constructor.
  - destruct (ex _) eqn:E.
    + exists [], (map (fun d => path_join (path_join d p) fn) dirs). cbn. auto.
    + change (path_join (path_join d p) fn :: ?l) with ([path_join (path_join d p) fn] ++ l).
      apply first_existing_app; [repeat constructor; assumption|assumption].
Qed.

(** the file name: '-' becomes '_' in ldml.getldml only *)
Definition underscored (s : pystr) : pystr := join (lit "_") (split_on 45%N s).
Lemma replace_split s : replace_char 45 95 s = underscored s.
Proof.
  unfold underscored. induction s as [|c s IH]; [reflexivity|]. cbn [replace_char map split_on].
  fold (replace_char 45 95 s). rewrite IH.
  destruct (split_on 45 s) as [|h t] eqn:E; [now destruct (split_on_nonempty 45 s)|].
  destruct (N.eqb_spec c 45); [subst; reflexivity|].
  destruct t; reflexivity.
Qed.

Theorem C30_ldml ex lower loc c rest indirs :
  loc = c :: rest ->
  exists r, getldml_ldml ex lower loc indirs = Ok r
  /\ first_existing ex
       (map (fun d => path_join (path_join d (lit ".")) (underscored loc ++ lit ".xml")) indirs
        ++ map (fun d => path_join (path_join d (lower [c])) (underscored loc ++ lit ".xml")) indirs)
       r.
Proof.
  intros ->. unfold getldml_ldml. rewrite replace_split.
  pose proof (getldml_dirs_spec ex (lit ".") (underscored (c :: rest) ++ lit ".xml") indirs) as H1.
  pose proof (getldml_dirs_spec ex (lower [c]) (underscored (c :: rest) ++ lit ".xml") indirs) as H2.
  destruct (getldml_dirs ex (lit ".") _ indirs) as [f|].
  - eexists; split; [reflexivity|]. now apply first_existing_more.
  - eexists; split; [reflexivity|]. now apply first_existing_app.
Qed.
Theorem C30_merge ex lower lname c rest dirs :
  lname = c :: rest ->
  exists r, getldml_merge ex lower lname dirs = Ok r
  /\ first_existing ex
       (flat_map (fun d => [ path_join d (lname ++ lit ".xml");
                             path_join (path_join d (lower [c])) (lname ++ lit ".xml") ]) dirs)
       r.
Proof.
  intros ->. induction dirs as [|d dirs IH]; cbn [getldml_merge flat_map].
  - eexists; split; [reflexivity|]. constructor.
  - destruct (ex (path_join d _)) eqn:E1.
    + eexists; split; [reflexivity|]. eexists [], _. cbn. eauto.
    + destruct (ex (path_join (path_join d (lower [c])) _)) eqn:E2.
      * eexists; split; [reflexivity|].
        eexists [path_join d ((c :: rest) ++ lit ".xml")], _. cbn. eauto.
      * destruct IH as (r & -> & IH). eexists; split; [reflexivity|].
        apply first_existing_app; [repeat constructor; assumption|assumption].
Qed.
(** the two searches can choose different files *)
Theorem C30_orders_differ :
  exists ex dirs f g, getldml_ldml ex (fun s => s) (lit "en") dirs = Ok (Some f)
    /\ getldml_merge ex (fun s => s) (lit "en") dirs = Ok (Some g) /\ f <> g.
Proof.
  exists (fun f => memstr f [lit "b/./en.xml"; lit "b/en.xml"; lit "a/e/en.xml"]),
    [lit "a"; lit "b"], (lit "b/./en.xml"), (lit "a/e/en.xml").
  split; [reflexivity|]. split; [reflexivity|discriminate].
Qed.
(** an empty name is an IndexError *)
Theorem C30_empty ex lower dirs : getldml_ldml ex lower [] dirs = Raise IndexError.
Proof. reflexivity. Qed.
Example C30_example :
  getldml_ldml (fun f => streq f (lit "x/e/en_US.xml")) (fun s => s) (lit "en-US") [lit "w"; lit "x"]
  = Ok (Some (lit "x/e/en_US.xml")).
Proof. reflexivity. Qed.
