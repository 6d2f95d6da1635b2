(** C28: what is written is read back; C51: writing does not depend on earlier writing. *)
From Coq Require Import String.
From Verif Require Import Py PyFacts M_LdmlBase M_TreeBuilder M_Collation M_Serialize M_Normalise S_Xml
  T_LdmlBase T_LdmlHash T_Collation2 T_TreeBuilder T_Normalise P_Serialize.
Local Open Scope list_scope.
Local Open Scope nat_scope.

(** * Which documents can be written *)
(** A name without a namespace. *)
Definition plain_name (k : pystr) : Prop :=
  k <> [] /\ good_local k /\ ~ In 58%N k /\ ~ In 123%N k /\ k <> lit "xmlns".
(** The namespace table: prefixes are names, "xml" is reserved. *)
Definition good_ns (ns : nsdict) : Prop :=
  ns_table ns /\ forall u p, In (u, p) ns ->
    plain_name p /\ good_value u /\ u <> [] /\ (p = lit "xml" <-> u = xml_uri).
Definition good_name (ns : nsdict) (k : pystr) : Prop :=
  plain_name k
  \/ exists u p l, In (u, p) ns /\ good_local l /\ k = lit "{" ++ u ++ lit "}" ++ l.
(** Tags whose text is written as CDATA. *)
Definition cdata_tag (w : writer) (t : pystr) : Prop :=
  exists s, localns (w_ns w) t = Ok s /\ In s (w_cdata w).
Inductive good_node (w : writer) : node -> Prop :=
| Good t a x kids :
    good_name (w_ns w) t ->
    NoDup (map fst a) ->
    Forall (fun kv => good_name (w_ns w) (fst kv) /\ good_value (snd kv)) a ->
    match x with
    | Some s => good_text s /\ (cdata_tag w t -> no_cdend s)
    | None => True
    end ->
    Forall (good_node w) kids ->
    good_node w (Node t a x kids).

(** * What is read *)
Section Read.
  Variable ws : N -> bool.
  Definition otext (x : option pystr) : pystr := match x with Some s => s | None => [] end.
  Definition layout (x : option pystr) : Prop := Forall (fun c => c = 9%N \/ c = 10%N) (otext x).
  (** [reads_as n x]: the element x as read is n: same tag, same attributes (in any order),
      same children, and for an element without children the same text up to the white space
      that normalise removes. Otherwise there is only layout: tabs and newlines. *)
  Inductive reads_as : node -> xnode -> Prop :=
  | reads_leaf t a x a' x' tl :
      Permutation a a' -> clean ws (otext x') = clean ws (otext x) -> layout tl ->
      reads_as (Node t a x []) (XNode t a' x' tl [])
  | reads_kids t a x kids a' x' tl kids' :
      kids <> [] -> Permutation a a' -> layout x' -> layout tl ->
      Forall2 reads_as kids kids' ->
      reads_as (Node t a x kids) (XNode t a' x' tl kids').
End Read.

(** * Names *)
Definition short (ns : nsdict) (k : pystr) : pystr :=
  match localisens ns 0 k with Ok (_, (s, _, _)) => s | Raise _ => k end.
Definition scope_ok (ns : nsdict) (scope : list (pystr * pystr)) : Prop :=
  forall u p, In (u, p) ns -> dget streq scope p = Some u.
Definition covers (ns nss : nsdict) : Prop := forall u p, In (u, p) ns -> In u (dkeys nss).

Lemma plain_head k : plain_name k -> exists c r, k = c :: r /\ N.eqb c 123 = false.
Proof.
  intros (Hne & _ & _ & H & _). destruct k as [|c r]; [congruence|].
  exists c, r. split; [reflexivity|]. destruct (N.eqb_spec c 123); [|reflexivity].
  subst. exfalso. apply H. now left.
Qed.
Lemma localisens_plain ns cnt k : plain_name k -> localisens ns cnt k = Ok (cnt, (k, [], None)).
Proof.
  intro H. destruct (plain_head k H) as (c & r & -> & E). unfold localisens. now rewrite E.
Qed.
Lemma localisens_ns ns cnt u p l : ns_table ns -> In (u, p) ns ->
  localisens ns cnt (lit "{" ++ u ++ lit "}" ++ l) = Ok (cnt, (p ++ 58%N :: l, p, Some u)).
Proof.
  intros (Hu & Hp & Hok) Hin. destruct (Hok _ _ Hin) as (Hne & _ & Hb).
  change (lit "{" ++ u ++ lit "}" ++ l) with (123%N :: u ++ 125%N :: l).
  unfold localisens. rewrite N.eqb_refl. rewrite partition1_app by assumption.
  rewrite (dget_NoDup_In streq streq_spec _ _ _ Hu Hin).
  destruct p; [congruence|reflexivity].
Qed.
Lemma short_plain ns k : plain_name k -> short ns k = k.
Proof. intro H. unfold short. now rewrite localisens_plain. Qed.
Lemma short_ns ns u p l : ns_table ns -> In (u, p) ns ->
  short ns (lit "{" ++ u ++ lit "}" ++ l) = p ++ 58%N :: l.
Proof. intros H Hin. unfold short. now rewrite (localisens_ns ns 0 u p l). Qed.

Lemma good_local_app a b : good_local a -> good_local b -> good_local (a ++ b).
Proof. intros. apply Forall_app. auto. Qed.
Lemma good_local_cons c b : xml_char c = true -> name_char c = true -> good_local b -> good_local (c :: b).
Proof. intros. constructor; auto. Qed.

(** everything the proof needs to know about a short name *)
Record shortname (ns : nsdict) (k s : pystr) : Prop := {
  sn_local : good_local s;
  sn_ne : s <> [];
  sn_head : exists c r, s = c :: r /\ N.eqb c 123 = false;
  sn_xmlns : xmlns_prefix s = None;
  sn_notxmlns : streq s (lit "xmlns") = false;
  sn_rev : reverse_localns ns s = k;
  sn_expand : forall scope, scope_ok ns scope -> expand_name scope s = Some k;
  sn_localise : exists q uo, (forall cnt, localisens ns cnt k = Ok (cnt, (s, q, uo)))
     /\ (uo = None \/ exists c u, uo = Some (c :: u) /\ In (c :: u, q) ns) }.

Lemma strip_prefix_app_inv p s r : strip_prefix p s = Some r -> s = p ++ r.
Proof.
  revert s. induction p as [|c p IH]; intros s H; cbn in H; [now injection H as ->|].
  destruct s as [|d s]; [discriminate|]. destruct (N.eqb_spec c d); [|discriminate].
  subst. cbn. f_equal. now apply IH.
Qed.
Lemma strip_prefix_app p r : strip_prefix p (p ++ r) = Some r.
Proof. induction p as [|c p IH]; [reflexivity|]. cbn. now rewrite N.eqb_refl. Qed.
Lemma xmlns_prefix_inv s r : xmlns_prefix s = Some r -> s = lit "xmlns" ++ 58%N :: r.
Proof. intro H. exact (strip_prefix_app_inv _ _ _ H). Qed.
Lemma app_colon_inj a b a' b' : ~ In 58%N a -> ~ In 58%N a' ->
  a ++ 58%N :: b = a' ++ 58%N :: b' -> a = a' /\ b = b'.
Proof.
  revert a'. induction a as [|x a IH]; intros [|y a'] H H' E; cbn in E.
  - now injection E as ->.
  - injection E as E _. exfalso. apply H'. now left.
  - injection E as E _. exfalso. apply H. now left.
  - injection E as -> E. destruct (IH a') as (-> & ->); cbn in *; tauto.
Qed.
Lemma no_colon_xmlns : ~ In 58%N (lit "xmlns").
Proof. cbn. intuition discriminate. Qed.

Lemma shortname_of ns k : good_ns ns -> good_name ns k -> shortname ns k (short ns k).
Proof.
  intros (Ht & Hns) [Hp|(u & p & l & Hin & Hl & ->)].
  - rewrite (short_plain ns k Hp). pose proof Hp as (Hne & Hg & Hc & Hb & Hx).
    constructor; auto.
    + now apply plain_head.
    + destruct (xmlns_prefix k) eqn:E; [|reflexivity]. apply xmlns_prefix_inv in E.
      exfalso. apply Hc. rewrite E. apply in_app_iff. right. now left.
    + now apply streq_false.
    + unfold reverse_localns. now rewrite (proj2 (partition1_None _ _) Hc).
    + intros scope _. unfold expand_name. now rewrite (proj2 (partition1_None _ _) Hc).
    + exists [], None. split; [|now left]. intro. now apply localisens_plain.
  - rewrite (short_ns ns u p l Ht Hin).
    destruct (Hns u p Hin) as ((Hne & Hg & Hc & Hb & Hx) & Hv & Hu & Hxml).
    constructor.
    + apply good_local_app; [assumption|]. apply good_local_cons; auto.
    + destruct p; [congruence|discriminate].
    + destruct p as [|c p]; [congruence|]. exists c, (p ++ 58%N :: l). split; [reflexivity|].
      destruct (N.eqb_spec c 123); [|reflexivity]. subst. exfalso. apply Hb. now left.
    + destruct (xmlns_prefix (p ++ 58%N :: l)) eqn:E; [|reflexivity]. apply xmlns_prefix_inv in E.
      apply app_colon_inj in E as (-> & _); [congruence|assumption|apply no_colon_xmlns].
    + apply streq_false. intro E. apply no_colon_xmlns. rewrite <- E. apply in_app_iff. right. now left.
    + now apply reverse_localns_declared.
    + intros scope Hs. unfold expand_name. rewrite partition1_app by assumption.
      now rewrite (Hs u p Hin).
    + exists p, (Some u). split; [intro; now apply localisens_ns|]. right.
      destruct u as [|c u]; [congruence|]. eauto.
Qed.
Lemma short_inj ns k k' : good_ns ns -> good_name ns k -> good_name ns k' ->
  short ns k = short ns k' -> k = k'.
Proof.
  intros G H H' E. rewrite <- (sn_rev _ _ _ (shortname_of ns k G H)),
    <- (sn_rev _ _ _ (shortname_of ns k' G H')). now rewrite E.
Qed.

(** * The text, as a function of the tree *)
Section Text.
  Variable w : writer.
  Notation ns := (w_ns w).
  Hypothesis G : good_ns ns.

  Definition getd (la : list (pystr * pystr)) (k : pystr) : pystr :=
    match dget streq la k with Some v => v | None => [] end.
  Definition decls : list (pystr * pystr) :=
    map (fun up => (lit "xmlns:" ++ snd up, fst up)) (filter (fun up => negb (streq (snd up) (lit "xml"))) ns).
  Definition raw_la (root : bool) (a : list (pystr * pystr)) : list (pystr * pystr) :=
    (if root then decls else []) ++ map (fun kv : pystr * pystr => (short ns (fst kv), snd kv)) a.
  Definition raw_attrs (root : bool) (t : pystr) (a : list (pystr * pystr)) : list (pystr * pystr) :=
    let la := raw_la root a in map (fun k => (k, getd la k)) (sortedattrs w t (dkeys la)).

  Definition leaf_text (ind t x : pystr) : pystr :=
    if memstr (short ns t) (w_cdata w)
    then nl ++ (tab ++ ind) ++ indent_lines (tab ++ ind) x ++ nl ++ ind
    else indent_lines ind x.
  Fixpoint wtext (root : bool) (ind : pystr) (n : node) : pystr :=
    match n with
    | Node t a x kids =>
        let start := ind ++ lit "<" ++ short ns t ++ atts_text (raw_attrs root t a) in
        match kids with
        | _ :: _ => start ++ lit ">" ++ nl ++ flat_map (wtext false (ind ++ tab)) kids
                    ++ ind ++ lit "</" ++ short ns t ++ lit ">" ++ nl
        | [] => match x with
                | Some (c :: s) =>
                    start ++ lit ">"
                    ++ (if memstr (short ns t) (w_cdata w)
                        then lit "<![CDATA[" ++ leaf_text ind t (c :: s) ++ lit "]]>"
                        else protect elementprotect (leaf_text ind t (c :: s)))
                    ++ lit "</" ++ short ns t ++ lit ">" ++ nl
                | _ => start ++ lit "/>" ++ nl
                end
        end
    end.

  (** ** Attributes *)
  Lemma dset_fresh (d : list (pystr * pystr)) k v : ~ In k (dkeys d) -> dset streq d k v = d ++ [(k, v)].
  Proof.
    induction d as [|[k' v'] d IH]; cbn; [reflexivity|]. intro H.
    destruct (streq_spec k k'); [subst; tauto|]. rewrite IH by tauto. reflexivity.
  Qed.

  Lemma nsprotect_ok a cnt la nss :
    covers ns nss -> Forall (fun kv => good_name ns (fst kv) /\ good_value (snd kv)) a ->
    nsprotect w a cnt la nss
    = Ok (cnt, fold_left (fun (la : list (pystr * pystr)) (kv : pystr * pystr) => dset streq la (short ns (fst kv)) (snd kv)) a la, nss).
  Proof.
    intros Hc F. revert la. induction F as [|[k v] a [Hk Hv] F IH]; intro la; [reflexivity|].
    cbn [nsprotect fold_left fst snd] in *.
    destruct (sn_localise _ _ _ (shortname_of ns k G Hk)) as (q & uo & E & Hu). rewrite E. cbn [bind].
    destruct Hu as [->|(c & u & -> & Hin)].
    - apply IH.
    - assert (dmem streq nss (c :: u) = true) as ->.
      { apply (dmem_spec streq streq_spec). exact (Hc _ _ Hin). }
      apply IH.
  Qed.
  Lemma fold_dset_fresh a la :
    NoDup (dkeys la ++ map (fun kv : pystr * pystr => short ns (fst kv)) a) ->
    fold_left (fun (la : list (pystr * pystr)) (kv : pystr * pystr) => dset streq la (short ns (fst kv)) (snd kv)) a la
    = la ++ map (fun kv : pystr * pystr => (short ns (fst kv), snd kv)) a.
  Proof.
    revert la. induction a as [|[k v] a IH]; intros la Nd; cbn; [now rewrite app_nil_r|].
    cbn in Nd. rewrite dset_fresh.
    - rewrite IH.
      + now rewrite <- app_assoc.
      + unfold dkeys in *. rewrite map_app. cbn. now rewrite <- app_assoc.
    - apply NoDup_remove_2 in Nd. rewrite in_app_iff in Nd. tauto.
  Qed.
  Lemma shorts_NoDup a : NoDup (map fst a) -> Forall (fun kv => good_name ns (fst kv) /\ good_value (snd kv)) a ->
    NoDup (map (fun kv : pystr * pystr => short ns (fst kv)) a).
  Proof.
    induction a as [|[k v] a IH]; intros Nd F; cbn in *; [constructor|].
    inversion Nd as [|? ? Hn Nd']; inversion F as [|? ? [Hk _] F']; subst. constructor; [|auto].
    intro Hin. apply Hn. apply in_map_iff in Hin as ([k' v'] & E & Hin). cbn in *.
    rewrite Forall_forall in F'. destruct (F' _ Hin) as [Hk' _]. cbn in Hk'.
    apply (short_inj ns k' k G Hk' Hk) in E. subst. apply in_map_iff. exists (k, v'). auto.
  Qed.

  Lemma attr_leb_total t x y : attr_leb w t x y = true \/ attr_leb w t y x = true.
  Proof.
    unfold attr_leb. rewrite (Nat.compare_antisym (attr_order w t x)).
    destruct (Nat.compare (attr_order w t x) (attr_order w t y)); cbn; auto. apply strleb_total.
  Qed.
  Lemma attr_leb_trans t x y z : attr_leb w t x y = true -> attr_leb w t y z = true -> attr_leb w t x z = true.
  Proof.
    unfold attr_leb.
    destruct (Nat.compare_spec (attr_order w t x) (attr_order w t y)) as [E|L|];
    destruct (Nat.compare_spec (attr_order w t y) (attr_order w t z)) as [E'|L'|]; intros H1 H2; try discriminate.
    - rewrite E, E', Nat.compare_refl. eapply strleb_trans; eauto.
    - rewrite E. now rewrite (proj2 (Nat.compare_lt_iff _ _) L').
    - rewrite <- E'. now rewrite (proj2 (Nat.compare_lt_iff _ _) L).
    - now rewrite (proj2 (Nat.compare_lt_iff _ _) (Nat.lt_trans _ _ _ L L')).
  Qed.
  Lemma attr_leb_antisym t x y : attr_leb w t x y = true -> attr_leb w t y x = true -> x = y.
  Proof.
    unfold attr_leb. rewrite (Nat.compare_antisym (attr_order w t x)).
    destruct (Nat.compare (attr_order w t x) (attr_order w t y)); cbn; try discriminate.
    apply strleb_antisym.
  Qed.
  Lemma sortedattrs_perm t l l' : Permutation l l' -> sortedattrs w t l = sortedattrs w t l'.
  Proof.
    intro P. apply isort_perm_eq; auto using attr_leb_total.
    - intros. eapply attr_leb_trans; eauto.
    - intros a b _ _. apply attr_leb_antisym.
  Qed.
  Lemma map_getd la : NoDup (dkeys la) -> map (fun k => (k, getd la k)) (dkeys la) = la.
  Proof.
    intro Nd. unfold dkeys. rewrite map_map. rewrite <- (map_id la) at 2. apply map_ext_in.
    intros [k v] Hin. cbn. unfold getd. now rewrite (dget_NoDup_In streq streq_spec _ _ _ Nd Hin).
  Qed.
  Lemma getd_perm la la' k : NoDup (dkeys la) -> Permutation la la' -> getd la k = getd la' k.
  Proof.
    intros Nd P.
    assert (NoDup (dkeys la')) as Nd' by (eapply Permutation_NoDup; [apply Permutation_map; exact P|exact Nd]).
    unfold getd. destruct (dget streq la k) as [v|] eqn:E.
    - apply (dget_In streq streq_spec) in E. apply (Permutation_in _ P) in E.
      now rewrite (dget_NoDup_In streq streq_spec _ _ _ Nd' E).
    - destruct (dget streq la' k) as [v|] eqn:E'; [|reflexivity].
      apply (dget_In streq streq_spec) in E'. apply (Permutation_in _ (Permutation_sym P)) in E'.
      rewrite (dget_NoDup_In streq streq_spec _ _ _ Nd E') in E. discriminate.
  Qed.
  Lemma raw_attrs_perm root t a : NoDup (dkeys (raw_la root a)) -> Permutation (raw_attrs root t a) (raw_la root a).
  Proof.
    intro Nd. unfold raw_attrs.
    transitivity (map (fun k => (k, getd (raw_la root a) k)) (dkeys (raw_la root a))).
    - apply Permutation_map. symmetry. apply isort_perm.
    - rewrite map_getd by assumption. reflexivity.
  Qed.

  Lemma write_attrs_ok ks la cnt :
    (forall k, In k ks -> In k (dkeys la) /\ exists c r, k = c :: r /\ N.eqb c 123 = false) ->
    write_attrs w ks la cnt = Ok (cnt, atts_text (map (fun k => (k, getd la k)) ks)).
  Proof.
    induction ks as [|k ks IH]; intro H; [reflexivity|]. cbn [write_attrs map atts_text flat_map].
    destruct (H k (or_introl eq_refl)) as (Hin & c & r & Ek & Ec).
    assert (localisens ns cnt k = Ok (cnt, (k, [], None))) as ->.
    { subst k. unfold localisens. now rewrite Ec. }
    cbn [bind]. destruct (dget streq la k) as [v|] eqn:E.
    - rewrite IH by (intros; apply H; now right). cbn [bind]. unfold atts_text, att_text. cbn [fst snd].
      replace (getd la k) with v by (unfold getd; now rewrite E). now rewrite <- !app_assoc.
    - exfalso. apply (dget_None streq streq_spec) in E. contradiction.
  Qed.

  (** ** Declarations on the root *)
  Lemma xmlns_inj (p q : pystr) : lit "xmlns:" ++ p = lit "xmlns:" ++ q -> p = q.
  Proof. apply app_inv_head. Qed.
  Lemma decls_keys_NoDup : NoDup (dkeys decls).
  Proof.
    unfold decls, dkeys. rewrite map_map. cbn [fst].
    destruct G as ((_ & Nd & _) & _). revert Nd. generalize ns. intros l Nd.
    induction l as [|[u p] l IH]; cbn [filter map snd]; [constructor|]. cbn in Nd. inversion Nd as [|? ? Hn Nd']; subst.
    destruct (streq p (lit "xml")); cbn [negb]; [auto|]. cbn [map]. constructor; [|auto].
    intro Hin. apply in_map_iff in Hin as ([u' p'] & E & Hin). cbn in E. apply xmlns_inj in E. subst.
    apply filter_In in Hin as [Hin _]. apply Hn. apply in_map_iff. exists (u', p). auto.
  Qed.
  Lemma decls_In k v : In (k, v) decls <-> exists p, k = lit "xmlns:" ++ p /\ In (v, p) ns /\ p <> lit "xml".
  Proof.
    unfold decls. rewrite in_map_iff. split.
    - intros ([u p] & E & Hin). cbn [fst snd] in E. assert (k = lit "xmlns:" ++ p /\ v = u) as [-> ->] by (split; congruence).
      apply filter_In in Hin as [Hin Hp].
      cbn in Hp. apply negb_true_iff, streq_false in Hp. eauto.
    - intros (p & -> & Hin & Hp). exists (v, p). split; [reflexivity|]. apply filter_In.
      split; [assumption|]. cbn. now apply negb_true_iff, streq_false.
  Qed.
  Lemma raw_la_NoDup root a : NoDup (map fst a) ->
    Forall (fun kv => good_name ns (fst kv) /\ good_value (snd kv)) a -> NoDup (dkeys (raw_la root a)).
  Proof.
    intros Nd F. unfold raw_la, dkeys. rewrite map_app, map_map. cbn [fst].
    pose proof (shorts_NoDup a Nd F) as Ns.
    destruct root; [|assumption].
    assert (forall k, In k (map fst decls) -> ~ In k (map (fun kv : pystr * pystr => short ns (fst kv)) a)) as D.
    { intros k Hk Hk'. apply in_map_iff in Hk as ([k0 v] & <- & Hk). apply decls_In in Hk as (p & -> & _).
      apply in_map_iff in Hk' as ([k1 v1] & E & Hk'). cbn in E.
      rewrite Forall_forall in F. destruct (F _ Hk') as [Hg _]. cbn in Hg.
      pose proof (sn_xmlns _ _ _ (shortname_of ns k1 G Hg)) as X. rewrite E in X.
      change (strip_prefix (lit "xmlns:") (lit "xmlns:" ++ p) = None) in X.
      rewrite strip_prefix_app in X. discriminate. }
    pose proof decls_keys_NoDup as Nk. unfold dkeys in Nk. revert Nk D. generalize (map fst decls). intros l Nk D.
    induction Nk as [|x l Hx Nk IH]; [assumption|]. cbn. constructor.
    - rewrite in_app_iff. intros [H|H]; [contradiction|]. apply (D x); [now left|assumption].
    - apply IH. intros k Hk. apply D. now right.
  Qed.
  Lemma declare_all_spec l : forall la nss,
    (forall u p, In (u, p) l -> In (u, p) ns) ->
    NoDup (dkeys la) -> (forall k v, In (k, v) la -> In (k, v) decls) ->
    let '(la', nss') := declare_all l la nss in
    NoDup (dkeys la') /\ (forall k v, In (k, v) la' -> In (k, v) decls)
    /\ (forall k v, In (k, v) la -> In (k, v) la')
    /\ (forall u p, In (u, p) l -> p <> lit "xml" -> In (lit "xmlns:" ++ p, u) la')
    /\ (forall u, In u (dkeys nss) -> In u (dkeys nss'))
    /\ (forall u p, In (u, p) l -> p <> lit "xml" -> In u (dkeys nss')).
  Proof.
    induction l as [|[n q] l IH]; intros la nss Hl Nd Hla; cbn [declare_all].
    - repeat split; auto; intros ? ? [].
    - destruct (streq_spec q (lit "xml")) as [->|Hq].
      + specialize (IH la nss (fun u p H => Hl u p (or_intror H)) Nd Hla).
        destruct (declare_all l la nss) as [la' nss']. destruct IH as (H1 & H2 & H3 & H4 & H5 & H6).
        repeat split; auto; intros u p [E|Hin] Hp; try (injection E as <- <-; congruence); eauto.
      + assert (In (lit "xmlns:" ++ q, n) decls) as Hd.
        { apply decls_In. exists q. repeat split; auto. apply Hl. now left. }
        assert (forall k v, In (k, v) (dset streq la (lit "xmlns:" ++ q) n) -> In (k, v) decls) as Hla'.
        { intros k v Hin.
          pose proof (dget_NoDup_In streq streq_spec _ _ _ (dset_NoDup streq streq_spec la (lit "xmlns:" ++ q) n Nd) Hin) as E.
          rewrite (dget_dset streq streq_spec) in E. destruct (streq_spec k (lit "xmlns:" ++ q)) as [->|].
          - injection E as <-. assumption.
          - apply Hla. now apply (dget_In streq streq_spec). }
        assert (forall k v, In (k, v) la -> In (k, v) (dset streq la (lit "xmlns:" ++ q) n)) as Hold.
        { intros k v Hin. apply (dget_In streq streq_spec). rewrite (dget_dset streq streq_spec).
          destruct (streq_spec k (lit "xmlns:" ++ q)) as [->|].
          - f_equal. apply Hla in Hin. pose proof decls_keys_NoDup as Nk.
            pose proof (dget_NoDup_In streq streq_spec _ _ _ Nk Hin) as E1.
            pose proof (dget_NoDup_In streq streq_spec _ _ _ Nk Hd) as E2. congruence.
          - now apply (dget_NoDup_In streq streq_spec). }
        specialize (IH (dset streq la (lit "xmlns:" ++ q) n) (dset streq nss n q)
          (fun u p H => Hl u p (or_intror H)) (dset_NoDup streq streq_spec _ _ _ Nd) Hla').
        destruct (declare_all l _ _) as [la' nss']. destruct IH as (H1 & H2 & H3 & H4 & H5 & H6).
        repeat split; auto.
        * intros u p [E|Hin] Hp; [injection E as <- <-|eauto]. apply H3.
          apply (dget_In streq streq_spec). apply (dget_dset_same streq streq_spec).
        * intros u Hu. apply H5. apply (in_dkeys_dset streq streq_spec). now right.
        * intros u p [E|Hin] Hp; [injection E as <- <-|eauto]. apply H5.
          apply (in_dkeys_dset streq streq_spec). now left.
  Qed.

  Lemma perm_same_attrs t la a root :
    NoDup (dkeys (raw_la root a)) -> Permutation la (raw_la root a) ->
    map (fun k => (k, getd la k)) (sortedattrs w t (dkeys la)) = raw_attrs root t a.
  Proof.
    intros Nd P. unfold raw_attrs.
    rewrite (sortedattrs_perm t (dkeys la) (dkeys (raw_la root a))) by (now apply Permutation_map).
    apply map_ext. intro k. f_equal. symmetry. apply getd_perm; [assumption|]. now symmetry.
  Qed.
  Lemma raw_la_head root a k : 
    Forall (fun kv => good_name ns (fst kv) /\ good_value (snd kv)) a ->
    In k (dkeys (raw_la root a)) -> exists c r, k = c :: r /\ N.eqb c 123 = false.
  Proof.
    intros F Hin. unfold raw_la, dkeys in Hin. rewrite map_app, map_map, in_app_iff in Hin.
    destruct Hin as [Hin|Hin].
    - destruct root; [|destruct Hin]. apply in_map_iff in Hin as ([k0 v] & <- & Hin).
      apply decls_In in Hin as (p & -> & _). cbn. eauto.
    - apply in_map_iff in Hin as ([k0 v] & <- & Hin). cbn. rewrite Forall_forall in F.
      destruct (F _ Hin) as [Hg _]. exact (sn_head _ _ _ (shortname_of ns k0 G Hg)).
  Qed.

  (** what is known about [namespaces] when an element is written *)
  Definition ready (root : bool) (nss : nsdict) : Prop :=
    if root then In xml_uri (dkeys nss) else covers ns nss.

  Lemma attrs_ok root t a cnt nss q uo :
    NoDup (map fst a) -> Forall (fun kv => good_name ns (fst kv) /\ good_value (snd kv)) a ->
    ready root nss ->
    (uo = None \/ exists c u, uo = Some (c :: u) /\ In (c :: u, q) ns) ->
    exists nss', covers ns nss' /\
    (let '(la, nss) :=
          match uo with
          | Some (u :: us) =>
              if dmem streq nss (u :: us) then ([], nss)
              else ([(lit "xmlns:" ++ q, u :: us)], dset streq nss (u :: us) q)
          | _ => ([], nss)
          end in
     do r <- Ok (if root then let '(la, nss) := declare_all ns la nss in (cnt, la, nss)
                       else (cnt, la, nss));
     let '(cnt, la, nss) := r in
     do r <- nsprotect w a cnt la nss;
     let '(cnt, la, nss) := r in
     do r <- write_attrs w (sortedattrs w t (dkeys la)) la cnt;
     let '(cnt, atxt) := r in Ok (cnt, nss, atxt))
    = Ok (cnt, nss', atts_text (raw_attrs root t a)).
  Proof.
    intros Nd F Hr Hu.
    assert (NoDup (dkeys (raw_la root a))) as Nr by now apply raw_la_NoDup.
    assert (forall la nss2, covers ns nss2 -> Permutation la (raw_la root a) ->
      (do r <- write_attrs w (sortedattrs w t (dkeys la)) la cnt;
       let '(cnt, atxt) := r in Ok (cnt, nss2, atxt))
      = Ok (cnt, nss2, atts_text (raw_attrs root t a))) as W.
    { intros la nss2 _ P. rewrite write_attrs_ok.
      - cbn [bind]. now rewrite (perm_same_attrs t la a root Nr P).
      - intros k Hk. unfold sortedattrs in Hk. apply in_isort in Hk. split; [assumption|].
        apply (raw_la_head root a k F). unfold dkeys in *. eapply Permutation_in; [|exact Hk].
        now apply Permutation_map. }
    destruct root; cbn [ready] in Hr.
    - set (start := match uo with
          | Some (u :: us) =>
              if dmem streq nss (u :: us) then ([], nss)
              else ([(lit "xmlns:" ++ q, u :: us)], dset streq nss (u :: us) q)
          | _ => ([], nss) end).
      assert (NoDup (dkeys (fst start)) /\ (forall k v, In (k, v) (fst start) -> In (k, v) decls)
              /\ In xml_uri (dkeys (snd start))) as (S1 & S2 & S3).
      { destruct Hu as [->|(c & u & -> & Hin)]; [cbn; repeat split; auto; [constructor|intros ? ? []]|].
        subst start. destruct (dmem streq nss (c :: u)) eqn:E.
        - cbn. repeat split; auto; [constructor|intros ? ? []].
        - cbn [fst snd]. repeat split.
          + repeat constructor. intros [].
          + intros k v [E1|[]]. assert (k = lit "xmlns:" ++ q /\ v = c :: u) as [-> ->] by (split; congruence).
            apply decls_In. exists q. repeat split; auto.
            intros ->. destruct (proj2 G _ _ Hin) as (_ & _ & _ & X). pose proof (proj1 X eq_refl) as X'.
            rewrite X' in E. apply (dmem_spec streq streq_spec) in Hr. congruence.
          + apply (in_dkeys_dset streq streq_spec). now right. }
      destruct start as [la0 nss0]. cbn [fst snd] in *. cbn [bind].
      pose proof (declare_all_spec ns la0 nss0 (fun _ _ H => H) S1 S2) as D.
      destruct (declare_all ns la0 nss0) as [la1 nss1]. destruct D as (D1 & D2 & _ & D4 & D5 & D6).
      assert (covers ns nss1) as C.
      { intros u p Hin. destruct (list_eq_dec N.eq_dec p (lit "xml")) as [->|Hp]; [|eauto].
        destruct (proj2 G _ _ Hin) as (_ & _ & _ & X). rewrite (proj1 X eq_refl). auto. }
      exists nss1. split; [assumption|]. rewrite (nsprotect_ok a cnt la1 nss1 C F). cbn [bind].
      assert (Permutation la1 decls) as P1.
      { apply NoDup_Permutation.
        - now apply (NoDup_map_inv fst).
        - apply (NoDup_map_inv fst). exact decls_keys_NoDup.
        - intros [k v]. split; [apply D2|]. intro H. apply decls_In in H as (p & -> & Hin & Hp). eauto. }
      rewrite fold_dset_fresh.
      + apply W; [assumption|]. unfold raw_la. now apply Permutation_app_tail.
      + eapply Permutation_NoDup; [|exact Nr]. unfold raw_la, dkeys. rewrite map_app, map_map. cbn [fst].
        apply Permutation_app_tail. apply Permutation_map. now symmetry.
    - exists nss. split; [assumption|].
      assert (match uo with
          | Some (u :: us) =>
              if dmem streq nss (u :: us) then ([], nss)
              else ([(lit "xmlns:" ++ q, u :: us)], dset streq nss (u :: us) q)
          | _ => ([], nss) end = ([], nss)) as ->.
      { destruct Hu as [->|(c & u & -> & Hin)]; [reflexivity|].
        rewrite (proj2 (dmem_spec streq streq_spec nss (c :: u)) (Hr _ _ Hin)). reflexivity. }
      cbn [bind]. rewrite (nsprotect_ok a cnt [] nss Hr F). cbn [bind].
      rewrite fold_dset_fresh; [|now apply shorts_NoDup].
      apply W; [assumption|]. reflexivity.
  Qed.

  Lemma ser_ok n : good_node w n -> forall root ind cnt nss, ready root nss ->
    exists nss', ser w true root ind n cnt nss = Ok (cnt, nss', wtext root ind n).
  Proof.
    induction n as [t a x kids IH] using node_ind'. intros Gn root ind cnt nss Hr.
    inversion Gn as [? ? ? ? Ht Nd F Hx Gk]; subst.
    cbn [ser wtext].
    destruct (sn_localise _ _ _ (shortname_of ns t G Ht)) as (q & uo & E & Hu). rewrite E. cbn [bind].
    destruct (attrs_ok root t a cnt nss q uo Nd F Hr Hu) as (nss' & C & A).
    destruct (match uo with
          | Some (u :: us) =>
              if dmem streq nss (u :: us) then ([], nss)
              else ([(lit "xmlns:" ++ q, u :: us)], dset streq nss (u :: us) q)
          | _ => ([], nss) end) as [la0 nss0].
    cbn [bind] in A |- *.
    destruct (if root then let '(la, nss) := declare_all ns la0 nss0 in (cnt, la, nss) else (cnt, la0, nss0))
      as [[cnt1 la1] nss1].
    destruct (nsprotect w a cnt1 la1 nss1) as [[[cnt2 la2] nss2]|]; [|discriminate]. cbn [bind] in A |- *.
    destruct (write_attrs w (sortedattrs w t (dkeys la2)) la2 cnt2) as [[cnt3 atxt]|]; [|discriminate].
    cbn [bind] in A |- *. injection A as -> -> ->.
      assert ((fix kloop (ks : list node) (cnt : nat) : res (nat * pystr) :=
                 match ks with
                 | [] => Ok (cnt, [])
                 | k :: ks' =>
                     do r1 <- ser w true false (ind ++ tab) k cnt nss';
                     let '(cnt, _, s1) := r1 in
                     do r2 <- kloop ks' cnt;
                     let '(cnt, s2) := r2 in Ok (cnt, s1 ++ s2)
                 end) kids cnt = Ok (cnt, flat_map (wtext false (ind ++ tab)) kids)) as K.
      { clear Gn. induction IH as [|k ks Hk IH IHk]; [reflexivity|].
        inversion Gk as [|? ? Gk0 Gk']; subst.
        destruct (Hk Gk0 false (ind ++ tab) cnt nss' C) as (nss2' & ->). cbn [bind].
        rewrite IHk by assumption. reflexivity. }
    destruct kids as [|k0 ks0].
    - destruct x as [[|c s]|].
      + exists nss'. now rewrite <- !app_assoc.
      + exists nss'. unfold leaf_text. destruct (memstr (short ns t) (w_cdata w)); rewrite <- !app_assoc; reflexivity.
      + exists nss'. now rewrite <- !app_assoc.
    - rewrite K. cbn [bind]. exists nss'. now rewrite <- !app_assoc.
  Qed.

  (** ** The items of the text *)
  Definition leaf_items (ind t : pystr) (x : option pystr) : list item :=
    match x with Some (c :: s) => char_items (leaf_text ind t (c :: s)) | _ => [] end.
  (** the tree with names as in [nm] and attributes as in [ats] *)
  Section Item.
    Variable nm : pystr -> pystr.
    Variable ats : bool -> pystr -> list (pystr * pystr) -> list (pystr * pystr).
    Fixpoint witem (root : bool) (ind : pystr) (n : node) : item :=
      match n with
      | Node t a x kids =>
          Child (nm t) (ats root t a)
            match kids with
            | [] => leaf_items ind t x
            | _ => Data nl :: flat_map (fun k => char_items (ind ++ tab)
                                          ++ [witem false (ind ++ tab) k; Data nl]) kids
                   ++ char_items ind
            end
      end.
  End Item.
  Definition raw_item := witem (short ns) raw_attrs.

  Lemma tabs_app a b : tabs a -> tabs b -> tabs (a ++ b).
  Proof. intros. apply Forall_app. auto. Qed.
  Lemma tabs_tab : tabs tab.
  Proof. repeat constructor. Qed.

  Lemma raw_attrs_good root t a : NoDup (map fst a) ->
    Forall (fun kv => good_name ns (fst kv) /\ good_value (snd kv)) a ->
    Forall (fun kv => good_local (fst kv) /\ fst kv <> [] /\ good_value (snd kv)) (raw_attrs root t a)
    /\ NoDup (map fst (raw_attrs root t a)).
  Proof.
    intros Nd F. pose proof (raw_la_NoDup root a Nd F) as Nr.
    pose proof (raw_attrs_perm root t a Nr) as P. split.
    - eapply Permutation_Forall; [symmetry; exact P|]. unfold raw_la. apply Forall_app. split.
      + destruct root; [|constructor]. apply Forall_forall. intros [k v] Hin.
        apply decls_In in Hin as (p & -> & Hin & _). cbn [fst snd].
        destruct (proj2 G _ _ Hin) as ((_ & Hg & _) & Hv & _). split; [|split; [discriminate|assumption]].
        apply good_local_app; [|assumption]. repeat constructor.
      + rewrite Forall_map. eapply Forall_impl; [|exact F]. intros [k v] [Hk Hv]. cbn [fst snd] in *.
        pose proof (shortname_of ns k G Hk) as S. split; [exact (sn_local _ _ _ S)|].
        split; [exact (sn_ne _ _ _ S)|assumption].
    - eapply Permutation_NoDup; [apply Permutation_map; symmetry; exact P|exact Nr].
  Qed.
  Lemma cdata_tag_short t : good_name ns t -> memstr (short ns t) (w_cdata w) = true -> cdata_tag w t.
  Proof.
    intros Hg H. exists (short ns t). split; [|now apply memstr_In].
    destruct Hg as [Hp|(u & p & l & Hin & Hl & ->)].
    - rewrite (short_plain ns t Hp). destruct (plain_head t Hp) as (c & r & -> & E).
      unfold localns. now rewrite E.
    - rewrite (short_ns ns u p l (proj1 G) Hin). now apply (localns_declared ns u p l (proj1 G)).
  Qed.
  Lemma leaf_text_lex ind t c s : tabs ind -> good_name ns t -> good_text (c :: s) ->
    (cdata_tag w t -> no_cdend (c :: s)) ->
    lex LText (if memstr (short ns t) (w_cdata w)
               then lit "<![CDATA[" ++ leaf_text ind t (c :: s) ++ lit "]]>"
               else protect elementprotect (leaf_text ind t (c :: s)))
    = Some (LText, chars (leaf_text ind t (c :: s))).
  Proof.
    intros Hi Ht Hx Hc. unfold leaf_text. destruct (memstr (short ns t) (w_cdata w)) eqn:E.
    - apply lex_cdata_section; auto.
      + apply tabs_app; [apply tabs_tab|assumption].
      + apply Hc. now apply cdata_tag_short.
    - apply lex_protected_text. apply good_text_indent; [now apply tabs_good|assumption].
  Qed.
  Lemma lex_wtext n : good_node w n -> forall root ind, tabs ind ->
    lex LText (wtext root ind n) = Some (LText, chars ind ++ item_events (raw_item root ind n) ++ [EData nl]).
  Proof.
    induction n as [t a x kids IH] using node_ind'. intros Gn root ind Hi.
    inversion Gn as [? ? ? ? Ht Nd F Hx Gk]; subst.
    destruct (raw_attrs_good root t a Nd F) as (Fr & Nr).
    pose proof (shortname_of ns t G Ht) as St.
    destruct (lex_start_open (short ns t) (raw_attrs root t a) (sn_local _ _ _ St) (sn_ne _ _ _ St) Fr Nr)
      as (L1 & L2).
    assert (lex LText nl = Some (LText, [EData nl])) as Lnl by reflexivity.
    assert (forall r st es, lex LText r = Some (st, es) ->
      lex LText (lit "</" ++ short ns t ++ lit ">" ++ r) = Some (st, EEnd (short ns t) :: es)) as Lend.
    { intros r st es Hr. 
      replace (lit "</" ++ short ns t ++ lit ">" ++ r) with ((lit "</" ++ short ns t ++ lit ">") ++ r)
        by (now rewrite <- !app_assoc).
      change (EEnd (short ns t) :: es) with ([EEnd (short ns t)] ++ es).
      eapply lex_app_ok; [apply (lex_end _ (sn_local _ _ _ St))|exact Hr]. }
    unfold raw_item. cbn [wtext witem item_events].
    destruct kids as [|k0 ks0].
    - destruct x as [[|c s]|]; cbn [leaf_items flat_map app].
      + replace ((ind ++ lit "<" ++ short ns t ++ atts_text (raw_attrs root t a)) ++ lit "/>" ++ nl)
          with (ind ++ (lit "<" ++ short ns t ++ atts_text (raw_attrs root t a) ++ lit "/>") ++ nl)
          by (now rewrite <- !app_assoc).
        eapply lex_app_ok; [now apply tabs_lex|].
        change [EStart (short ns t) (raw_attrs root t a); EEnd (short ns t); EData nl]
          with ([EStart (short ns t) (raw_attrs root t a); EEnd (short ns t)] ++ [EData nl]).
        eapply lex_app_ok; [exact L2|exact Lnl].
      + destruct Hx as (Hx1 & Hx2).
        pose proof (leaf_text_lex ind t c s Hi Ht Hx1 Hx2) as Lt.
        set (body := if memstr (short ns t) (w_cdata w) then _ else _) in *.
        replace ((ind ++ lit "<" ++ short ns t ++ atts_text (raw_attrs root t a)) ++
                 lit ">" ++ body ++ lit "</" ++ short ns t ++ lit ">" ++ nl)
          with (ind ++ (lit "<" ++ short ns t ++ atts_text (raw_attrs root t a) ++ lit ">") ++ body ++
                lit "</" ++ short ns t ++ lit ">" ++ nl) by (now rewrite <- !app_assoc).
        eapply lex_app_ok; [now apply tabs_lex|].
        rewrite chars_items.
        change (EStart (short ns t) (raw_attrs root t a) ::
          (chars (leaf_text ind t (c :: s)) ++ [EEnd (short ns t)]) ++ [EData nl])
          with ([EStart (short ns t) (raw_attrs root t a)] ++
            ((chars (leaf_text ind t (c :: s)) ++ [EEnd (short ns t)]) ++ [EData nl])).
        eapply lex_app_ok; [exact L1|]. rewrite <- app_assoc.
        eapply lex_app_ok; [exact Lt|]. apply Lend. exact Lnl.
      + replace ((ind ++ lit "<" ++ short ns t ++ atts_text (raw_attrs root t a)) ++ lit "/>" ++ nl)
          with (ind ++ (lit "<" ++ short ns t ++ atts_text (raw_attrs root t a) ++ lit "/>") ++ nl)
          by (now rewrite <- !app_assoc).
        eapply lex_app_ok; [now apply tabs_lex|].
        change [EStart (short ns t) (raw_attrs root t a); EEnd (short ns t); EData nl]
          with ([EStart (short ns t) (raw_attrs root t a); EEnd (short ns t)] ++ [EData nl]).
        eapply lex_app_ok; [exact L2|exact Lnl].
    - remember (k0 :: ks0) as kids eqn:Ek. clear Ek.
      assert (lex LText (flat_map (wtext false (ind ++ tab)) kids)
        = Some (LText, flat_map item_events
                 (flat_map (fun k => char_items (ind ++ tab)
                      ++ [witem (short ns) raw_attrs false (ind ++ tab) k; Data nl]) kids))) as K.
      { clear Gn. induction IH as [|k ks Hk IH IHk]; [reflexivity|].
        inversion Gk as [|? ? Gk0 Gk']; subst. cbn [flat_map]. rewrite flat_map_app.
        eapply lex_app_ok; [|now apply IHk].
        rewrite (Hk Gk0 false (ind ++ tab)) by (apply tabs_app; [assumption|apply tabs_tab]).
        unfold raw_item. rewrite flat_map_app, chars_items. reflexivity. }
      replace ((ind ++ lit "<" ++ short ns t ++ atts_text (raw_attrs root t a)) ++
        lit ">" ++ nl ++ flat_map (wtext false (ind ++ tab)) kids ++
        ind ++ lit "</" ++ short ns t ++ lit ">" ++ nl)
        with (ind ++ (lit "<" ++ short ns t ++ atts_text (raw_attrs root t a) ++ lit ">") ++ nl ++
          flat_map (wtext false (ind ++ tab)) kids ++ ind ++ lit "</" ++ short ns t ++ lit ">" ++ nl)
        by (now rewrite <- !app_assoc).
      eapply lex_app_ok; [now apply tabs_lex|].
      cbn [flat_map item_events]. rewrite flat_map_app, chars_items.
      match goal with |- _ = Some (_, (EStart ?x ?y :: (?d ++ ?k ++ ?i) ++ [?e]) ++ ?r) =>
        replace ((EStart x y :: (d ++ k ++ i) ++ [e]) ++ r)
          with ([EStart x y] ++ d ++ k ++ i ++ (e :: r))
          by (cbn [app]; rewrite <- !app_assoc; reflexivity) end.
      eapply lex_app_ok; [exact L1|]. eapply lex_app_ok; [exact Lnl|].
      eapply lex_app_ok; [exact K|]. eapply lex_app_ok; [now apply tabs_lex|].
      apply Lend. exact Lnl.
  Qed.

  (** ** Names resolved *)
  Definition is_decl (kv : pystr * pystr) : bool :=
    match xmlns_prefix (fst kv) with Some _ => true | None => false end.
  Definition res_attrs (root : bool) (t : pystr) (a : list (pystr * pystr)) : list (pystr * pystr) :=
    map (fun kv => (reverse_localns ns (fst kv), snd kv))
      (filter (fun kv => negb (is_decl kv)) (raw_attrs root t a)).
  Definition res_item := witem (fun t => t) res_attrs.

  Lemma decls_is_decl : filter (fun kv => negb (is_decl kv)) decls = [].
  Proof.
    assert (forall kv, In kv decls -> is_decl kv = true) as H.
    { intros [k v] Hin. apply decls_In in Hin as (p & -> & _). unfold is_decl, xmlns_prefix. cbn [fst].
      now rewrite strip_prefix_app. }
    revert H. generalize decls. induction l as [|kv l IH]; intro H; [reflexivity|]. cbn [filter].
    rewrite (H kv (or_introl eq_refl)). cbn [negb]. apply IH. intros; apply H; now right.
  Qed.
  Lemma shorts_not_decl a : Forall (fun kv => good_name ns (fst kv) /\ good_value (snd kv)) a ->
    filter (fun kv => negb (is_decl kv)) (map (fun kv : pystr * pystr => (short ns (fst kv), snd kv)) a)
    = map (fun kv : pystr * pystr => (short ns (fst kv), snd kv)) a.
  Proof.
    induction 1 as [|[k v] a [Hk Hv] F IH]; [reflexivity|]. cbn [map filter]. unfold is_decl at 1. cbn [fst snd] in *.
    rewrite (sn_xmlns _ _ _ (shortname_of ns k G Hk)). cbn [negb]. now rewrite IH.
  Qed.
  Lemma Permutation_filter {A} (f : A -> bool) l l' : Permutation l l' -> Permutation (filter f l) (filter f l').
  Proof.
    induction 1; cbn; auto.
    - destruct (f x); auto.
    - destruct (f x), (f y); auto. constructor.
    - etransitivity; eauto.
  Qed.
  Lemma res_attrs_perm root t a : NoDup (map fst a) ->
    Forall (fun kv => good_name ns (fst kv) /\ good_value (snd kv)) a ->
    Permutation a (res_attrs root t a).
  Proof.
    intros Nd F. pose proof (raw_attrs_perm root t a (raw_la_NoDup root a Nd F)) as P.
    unfold res_attrs. etransitivity; [|apply Permutation_map, Permutation_filter; symmetry; exact P].
    unfold raw_la. rewrite filter_app, shorts_not_decl by assumption.
    replace (filter _ (if root then decls else [])) with (@nil (pystr * pystr))
      by (destruct root; [now rewrite decls_is_decl|reflexivity]).
    cbn [app]. rewrite map_map. cbn [fst snd].
    replace (map _ a) with a; [reflexivity|]. rewrite <- (map_id a) at 1. apply map_ext_in.
    intros [k v] Hin. cbn [fst snd]. rewrite Forall_forall in F. destruct (F _ Hin) as [Hk _]. cbn [fst] in Hk.
    now rewrite (sn_rev _ _ _ (shortname_of ns k G Hk)).
  Qed.
  Lemma expand_raw root t a scope : NoDup (map fst a) ->
    Forall (fun kv => good_name ns (fst kv) /\ good_value (snd kv)) a -> scope_ok ns scope ->
    expand_attrs scope (raw_attrs root t a) = Some (res_attrs root t a).
  Proof.
    intros Nd F Hs. unfold res_attrs.
    pose proof (raw_attrs_perm root t a (raw_la_NoDup root a Nd F)) as P.
    assert (Forall (fun kv => is_decl kv = true
             \/ exists k, good_name ns k /\ fst kv = short ns k) (raw_attrs root t a)) as H.
    { eapply Permutation_Forall; [symmetry; exact P|]. unfold raw_la. apply Forall_app. split.
      - destruct root; [|constructor]. apply Forall_forall. intros [k v] Hin. left.
        apply decls_In in Hin as (p & -> & _). unfold is_decl, xmlns_prefix. cbn [fst].
        now rewrite strip_prefix_app.
      - rewrite Forall_map. eapply Forall_impl; [|exact F]. intros [k v] [Hk _]. right. exists k. auto. }
    clear P. induction H as [|[k v] l Hkv H IH]; [reflexivity|]. cbn [expand_attrs filter].
    unfold is_decl in Hkv |- * at 1. cbn [fst] in *.
    destruct Hkv as [Hd|(k0 & Hg & ->)].
    - destruct (xmlns_prefix k); [|discriminate]. cbn [negb]. exact IH.
    - pose proof (shortname_of ns k0 G Hg) as S. rewrite (sn_xmlns _ _ _ S). cbn [negb map].
      rewrite (sn_notxmlns _ _ _ S), (sn_expand _ _ _ S scope Hs), IH. cbn [fst snd].
      now rewrite (sn_rev _ _ _ S).
  Qed.
  Lemma declarations_app a b : declarations (a ++ b) = declarations a ++ declarations b.
  Proof.
    induction a as [|[k v] a IH]; [reflexivity|]. cbn [declarations app].
    destruct (xmlns_prefix k); cbn; now rewrite IH.
  Qed.
  Lemma declarations_perm a b : Permutation a b -> Permutation (declarations a) (declarations b).
  Proof.
    induction 1 as [|[k v] a b P IH|[k v] [k' v'] a|]; cbn [declarations]; auto.
    - destruct (xmlns_prefix k); auto.
    - destruct (xmlns_prefix k), (xmlns_prefix k'); auto. constructor.
    - etransitivity; eauto.
  Qed.
  Lemma declarations_shorts a : Forall (fun kv => good_name ns (fst kv) /\ good_value (snd kv)) a ->
    declarations (map (fun kv : pystr * pystr => (short ns (fst kv), snd kv)) a) = [].
  Proof.
    induction 1 as [|[k v] a [Hk Hv] F IH]; [reflexivity|]. cbn [map declarations fst snd] in *.
    now rewrite (sn_xmlns _ _ _ (shortname_of ns k G Hk)).
  Qed.
  Lemma declarations_raw root t a : NoDup (map fst a) ->
    Forall (fun kv => good_name ns (fst kv) /\ good_value (snd kv)) a ->
    Permutation (declarations (raw_attrs root t a)) (if root then declarations decls else []).
  Proof.
    intros Nd F. pose proof (raw_attrs_perm root t a (raw_la_NoDup root a Nd F)) as P.
    etransitivity; [apply declarations_perm; exact P|]. unfold raw_la.
    rewrite declarations_app, declarations_shorts, app_nil_r by assumption.
    destruct root; reflexivity.
  Qed.
  Lemma declarations_decls :
    declarations decls = map (fun up => (snd up, fst up)) (filter (fun up => negb (streq (snd up) (lit "xml"))) ns).
  Proof.
    unfold decls. generalize (filter (fun up => negb (streq (snd up) (lit "xml"))) ns).
    induction l as [|[u p] l IH]; [reflexivity|]. cbn [map declarations fst snd].
    unfold xmlns_prefix at 1. rewrite strip_prefix_app. now rewrite IH.
  Qed.
  Lemma root_scope t a : NoDup (map fst a) ->
    Forall (fun kv => good_name ns (fst kv) /\ good_value (snd kv)) a ->
    scope_ok ns (declarations (raw_attrs true t a) ++ scope0).
  Proof.
    intros Nd F. pose proof (declarations_raw true t a Nd F) as P. cbn iota in P. rewrite declarations_decls in P.
    set (d := map _ _) in P.
    assert (NoDup (dkeys d)) as Nk.
    { unfold d, dkeys. rewrite map_map. cbn [fst]. destruct G as ((_ & Np & _) & _).
      revert Np. generalize ns. induction l as [|[u p] l IH]; intro Np; [constructor|].
      cbn [filter snd map] in *. inversion Np as [|? ? Hn Np']; subst.
      destruct (streq p (lit "xml")); cbn [negb]; [auto|]. cbn [map]. constructor; [|auto].
      intro Hin. apply Hn. apply in_map_iff in Hin as (up & E & Hin). apply filter_In in Hin as [Hin _].
      cbn [snd] in E. rewrite <- E. now apply in_map. }
    assert (NoDup (dkeys (declarations (raw_attrs true t a)))) as Nk'.
    { eapply Permutation_NoDup; [apply Permutation_map; symmetry; exact P|exact Nk]. }
    assert (forall (l l' : list (pystr * pystr)) k, dget streq (l ++ l') k
              = match dget streq l k with Some v => Some v | None => dget streq l' k end) as Da.
    { clear. induction l as [|[k' v] l IH]; intros l' k; cbn; [reflexivity|]. destruct (streq k k'); auto. }
    intros u p Hin. rewrite Da.
    destruct (list_eq_dec N.eq_dec p (lit "xml")) as [->|Hp].
    - replace (dget streq (declarations (raw_attrs true t a)) (lit "xml")) with (@None pystr).
      + destruct (proj2 G _ _ Hin) as (_ & _ & _ & X). rewrite (proj1 X eq_refl). reflexivity.
      + symmetry. apply (dget_None streq streq_spec). intro H.
        assert (In (lit "xml") (dkeys d)) as H'.
        { eapply Permutation_in; [apply Permutation_map; exact P|exact H]. }
        unfold d, dkeys in H'. rewrite map_map in H'. apply in_map_iff in H' as ([u' p'] & E & H').
        apply filter_In in H' as [_ H']. cbn [snd fst] in *. subst p'.
        rewrite streq_refl in H'. discriminate.
    - assert (In (p, u) d) as Hd.
      { unfold d. apply in_map_iff. exists (u, p). split; [reflexivity|]. apply filter_In.
        split; [assumption|]. cbn [snd]. now apply negb_true_iff, streq_false. }
      apply (Permutation_in _ (Permutation_sym P)) in Hd.
      now rewrite (dget_NoDup_In streq streq_spec _ _ _ Nk' Hd).
  Qed.

  Lemma resolve_data scs s rest :
    nsresolve scs (chars s ++ rest) = option_map (app (chars s)) (nsresolve scs rest).
  Proof.
    induction s as [|c s IH]; [change (chars [] ++ rest) with rest; destruct (nsresolve scs rest); reflexivity|].
    change (chars (c :: s)) with (EData [c] :: chars s). cbn [app nsresolve]. rewrite IH.
    destruct (nsresolve scs rest); reflexivity.
  Qed.
  Lemma resolve_node n : good_node w n -> forall root ind scs rest,
    match scs with
    | [] => root = true
    | sc :: _ => root = false /\ scope_ok ns sc
    end ->
    nsresolve scs (item_events (raw_item root ind n) ++ rest)
    = option_map (app (item_events (res_item root ind n))) (nsresolve scs rest).
  Proof.
    induction n as [t a x kids IH] using node_ind'. intros Gn root ind scs rest Hsc.
    inversion Gn as [? ? ? ? Ht Nd F Hx Gk]; subst.
    pose proof (shortname_of ns t G Ht) as St.
    unfold raw_item, res_item. cbn [witem item_events app nsresolve].
    set (scope' := declarations (raw_attrs root t a) ++ match scs with [] => scope0 | s :: _ => s end).
    assert (scope_ok ns scope') as Hs.
    { subst scope'. destruct scs as [|sc scs].
      - subst. now apply root_scope.
      - destruct Hsc as (-> & Hsc). pose proof (declarations_raw false t a Nd F) as P. cbn iota in P.
        apply Permutation_sym, Permutation_nil in P. rewrite P. exact Hsc. }
    rewrite (sn_expand _ _ _ St scope' Hs), (expand_raw root t a scope' Nd F Hs).
    assert (forall rest, nsresolve (scope' :: scs)
        (flat_map item_events match kids with
            | [] => leaf_items ind t x
            | _ => Data nl :: flat_map (fun k => char_items (ind ++ tab)
                      ++ [witem (short ns) raw_attrs false (ind ++ tab) k; Data nl]) kids ++ char_items ind
            end ++ rest)
      = option_map (app (flat_map item_events match kids with
            | [] => leaf_items ind t x
            | _ => Data nl :: flat_map (fun k => char_items (ind ++ tab)
                      ++ [witem (fun t => t) res_attrs false (ind ++ tab) k; Data nl]) kids ++ char_items ind
            end)) (nsresolve (scope' :: scs) rest)) as K.
    { clear rest. intro rest. destruct kids as [|k0 ks0].
      - unfold leaf_items. destruct x as [[|c s]|]; try (cbn [flat_map app]; destruct (nsresolve (scope' :: scs) rest); reflexivity).
        rewrite chars_items. apply resolve_data.
      - remember (k0 :: ks0) as kids eqn:Ek. clear Ek.
        cbn [flat_map item_events]. rewrite !flat_map_app, !chars_items. cbn [app nsresolve].
        rewrite <- !app_assoc.
        assert (forall rest, nsresolve (scope' :: scs)
            (flat_map item_events (flat_map (fun k => char_items (ind ++ tab)
                      ++ [witem (short ns) raw_attrs false (ind ++ tab) k; Data nl]) kids) ++ rest)
          = option_map (app (flat_map item_events (flat_map (fun k => char_items (ind ++ tab)
                      ++ [witem (fun t => t) res_attrs false (ind ++ tab) k; Data nl]) kids)))
              (nsresolve (scope' :: scs) rest)) as K2.
        { clear rest Gn. induction IH as [|k ks Hk IH IHk]; intro rest;
            [cbn [flat_map app]; destruct (nsresolve (scope' :: scs) rest); reflexivity|].
          inversion Gk as [|? ? Gk0 Gk']; subst. cbn [flat_map]. rewrite !flat_map_app, !chars_items.
          rewrite <- !app_assoc. rewrite resolve_data. cbn [flat_map item_events app].
          rewrite <- !app_assoc.
          rewrite (Hk Gk0 false (ind ++ tab) (scope' :: scs)) by (split; [reflexivity|assumption]).
          cbn [app nsresolve]. rewrite IHk by assumption.
          destruct (nsresolve (scope' :: scs) rest); [|reflexivity]. cbn [option_map].
          f_equal. unfold res_item. rewrite <- !app_assoc. reflexivity. }
        rewrite K2, resolve_data.
        destruct (nsresolve (scope' :: scs) rest); [|reflexivity]. cbn [option_map].
        f_equal. cbn [app]. rewrite <- !app_assoc. reflexivity. }
    rewrite <- app_assoc. rewrite K. cbn [app nsresolve].
    rewrite (sn_expand _ _ _ St scope' Hs).
    destruct (nsresolve scs rest); [|reflexivity]. cbn [option_map]. f_equal. cbn [app].
    f_equal. now rewrite <- app_assoc.
  Qed.
End Text.

(** * The tree that is read *)
Section Tree.
  Variable ws : N -> bool.
  Hypothesis ws_blank : ws 32%N = true /\ ws 9%N = true /\ ws 10%N = true.

  Lemma indent_lines_app ind a b : indent_lines ind (a ++ b) = indent_lines ind a ++ indent_lines ind b.
  Proof. apply flat_map_app. Qed.
  Lemma strip_all_ws s : forallb ws s = true -> strip ws s = [].
  Proof.
    intro H. unfold strip. rewrite <- (app_nil_r s). rewrite lstrip_ws by assumption. reflexivity.
  Qed.
  Lemma tabs_ws s : tabs s -> forallb ws s = true.
  Proof.
    intro H. apply forallb_forall. unfold tabs in H. rewrite Forall_forall in H. intros c Hc.
    rewrite (H c Hc). tauto.
  Qed.
  Lemma indent_ws ind s : tabs ind -> forallb ws s = true -> forallb ws (indent_lines ind s) = true.
  Proof.
    intros Hi H. apply forallb_forall. intros c Hc. apply in_flat_map in Hc as (x & Hx & Hc).
    destruct (N.eqb_spec x 10).
    - destruct Hc as [<-|Hc]; [tauto|]. apply (proj1 (forallb_forall ws ind) (tabs_ws ind Hi) c Hc).
    - destruct Hc as [<-|[]]. apply (proj1 (forallb_forall ws s) H x Hx).
  Qed.
  Lemma tidy_indent ind s : tabs ind -> forall p sk, tidy_from p sk (indent_lines ind s) = tidy_from p sk s.
  Proof.
    intro Hi.
    assert (forall i r, tabs i -> tidy_from [] true (i ++ r) = tidy_from [] true r) as K.
    { intros i r H. induction H as [|c i -> H IH]; [reflexivity|]. exact IH. }
    induction s as [|c s IH]; intros p sk; [reflexivity|].
    change (indent_lines ind (c :: s))
      with ((if N.eqb c 10 then 10%N :: ind else [c]) ++ indent_lines ind s).
    destruct (N.eqb_spec c 10) as [->|Hc].
    - cbn [app tidy_from]. change (N.eqb 10 10) with true. cbn iota. rewrite K by assumption. now rewrite IH.
    - cbn [app tidy_from]. destruct (N.eqb_spec c 10); [congruence|].
      destruct (is_blank c); [destruct sk|]; now rewrite IH.
  Qed.
  Lemma strip_indent ind s p' q' : tabs ind -> forallb ws p' = true -> forallb ws q' = true ->
    strip ws (p' ++ indent_lines ind s ++ q') = indent_lines ind (strip ws s).
  Proof.
    intros Hi Hp' Hq'. destruct (strip_spec ws s) as (p & q & E & Hp & Hq & S).
    destruct S as [S|[(x & m & Ex & Hx) (y & m' & Ey & Hy)]].
    - rewrite S in E. rewrite S. apply strip_all_ws. rewrite !forallb_app, Hp', Hq'.
      rewrite indent_ws; [reflexivity|assumption|]. rewrite E. cbn [app]. now rewrite forallb_app, Hp, Hq.
    - rewrite E at 1. rewrite !indent_lines_app.
      replace (p' ++ (indent_lines ind p ++ indent_lines ind (strip ws s) ++ indent_lines ind q) ++ q')
        with ((p' ++ indent_lines ind p) ++ indent_lines ind (strip ws s) ++ (indent_lines ind q ++ q'))
        by (now rewrite <- !app_assoc).
      apply strip_trim.
      + rewrite forallb_app, Hp'. now apply indent_ws.
      + rewrite forallb_app, Hq'. rewrite indent_ws; auto.
      + exists x, (indent_lines ind m). split; [|assumption]. rewrite Ex.
        change (indent_lines ind (x :: m)) with ((if N.eqb x 10 then 10%N :: ind else [x]) ++ indent_lines ind m).
        destruct (nonws_plain ws ws_blank x Hx) as (-> & _). reflexivity.
      + exists y, (indent_lines ind m'). split; [|assumption]. rewrite Ey, indent_lines_app. f_equal.
        cbn [indent_lines flat_map]. destruct (nonws_plain ws ws_blank y Hy) as (-> & _). reflexivity.
  Qed.
  Lemma clean_leaf w ind t s : tabs ind -> clean ws (leaf_text w ind t s) = clean ws s.
  Proof.
    intro Hi. unfold leaf_text, clean, tidy. destruct (memstr (short (w_ns w) t) (w_cdata w)).
    - assert (tabs (tab ++ ind)) as Hi' by (apply tabs_app; [apply tabs_tab|assumption]).
      replace (nl ++ (tab ++ ind) ++ indent_lines (tab ++ ind) s ++ nl ++ ind)
        with ((nl ++ tab ++ ind) ++ indent_lines (tab ++ ind) s ++ (nl ++ ind)) by (now rewrite <- !app_assoc).
      rewrite strip_indent; [now apply tidy_indent|assumption| |].
      + change (forallb ws (nl ++ (tab ++ ind)) = true). rewrite forallb_app, (tabs_ws _ Hi').
        cbn. rewrite (proj2 (proj2 ws_blank)). reflexivity.
      + rewrite forallb_app, (tabs_ws _ Hi). cbn. rewrite (proj2 (proj2 ws_blank)). reflexivity.
    - rewrite <- (app_nil_r (indent_lines ind s)), <- (app_nil_l (indent_lines ind s ++ [])).
      rewrite strip_indent; [now apply tidy_indent|assumption|reflexivity|reflexivity].
  Qed.

  Lemma layout_more o s : layout o -> Forall (fun c => c = 9%N \/ c = 10%N) s -> layout (more o s).
  Proof. unfold layout, more. destruct o; cbn; intros; [apply Forall_app|]; auto. Qed.
  Lemma reads_more n x s : reads_as ws n x -> Forall (fun c => c = 9%N \/ c = 10%N) s ->
    reads_as ws n (more_tail s x).
  Proof.
    intros H Hs. destruct H; unfold more_tail; cbn [xtag xattrs xtext xtail xkids]; constructor; auto;
      now apply layout_more.
  Qed.
  Definition okacc (done : list node) (acc : option pystr * list xnode) : Prop :=
    layout (fst acc) /\ Forall2 (reads_as ws) done (snd acc).
  Lemma okacc_data done acc s : okacc done acc -> Forall (fun c => c = 9%N \/ c = 10%N) s ->
    okacc done (add_item item_tree acc (Data s)).
  Proof.
    intros (H1 & H2) Hs. destruct acc as [tx ks]. cbn [fst snd] in *. unfold add_item. cbn [fst snd].
    destruct ks as [|k ks]; [split; [now apply layout_more|assumption]|].
    split; [assumption|]. cbn [fst snd]. remember (k :: ks) as l eqn:E. clear E k ks.
    revert done H2. induction l as [|k l IH]; intros done H2; [inversion H2; constructor|].
    inversion H2 as [|n0 k1 done' l1 Hk Hl]; subst. destruct l as [|k' l'].
    - cbn [upd_last]. inversion Hl; subst. constructor; [now apply reads_more|constructor].
    - change (upd_last (more_tail s) (k :: k' :: l')) with (k :: upd_last (more_tail s) (k' :: l')).
      constructor; auto.
  Qed.
  Lemma okacc_chars done acc s : okacc done acc -> Forall (fun c => c = 9%N \/ c = 10%N) s ->
    okacc done (fold_left (add_item item_tree) (char_items s) acc).
  Proof.
    intros H Hs. revert acc H. induction Hs as [|c s Hc Hs IH]; intros acc H; [assumption|].
    cbn [char_items map fold_left]. apply IH. apply okacc_data; [assumption|]. constructor; [assumption|constructor].
  Qed.
  Lemma nl_layout : Forall (fun c => c = 9%N \/ c = 10%N) nl.
  Proof. constructor; [now right|constructor]. Qed.
  Lemma tabs_layout s : tabs s -> Forall (fun c => c = 9%N \/ c = 10%N) s.
  Proof. intro H. eapply Forall_impl; [|exact H]. cbn. auto. Qed.

  Lemma reads_node w n : good_ns (w_ns w) -> good_node w n -> forall root ind, tabs ind ->
    reads_as ws n (item_tree (res_item w root ind n)).
  Proof.
    intro G. induction n as [t a x kids IH] using node_ind'. intros Gn root ind Hi.
    inversion Gn as [? ? ? ? Ht Nd F Hx Gk]; subst.
    pose proof (res_attrs_perm w G root t a Nd F) as P.
    unfold res_item. cbn [witem item_tree].
    destruct kids as [|k0 ks0].
    - unfold leaf_items. destruct x as [[|c s]|].
      + cbn. constructor; auto. apply Forall_nil.
      + set (lt := leaf_text w ind t (c :: s)).
        replace (char_items lt) with (map Data (map (fun c => [c]) lt))
          by (unfold char_items; now rewrite map_map).
        change (fold_left (add_item item_tree) (map Data (map (fun c => [c]) lt)) (None, []))
          with (items_tree (map Data (map (fun c => [c]) lt))).
        rewrite items_tree_data_empty. constructor; auto; [|apply Forall_nil].
        replace (otext _) with lt; [unfold lt; cbn [otext]; now apply clean_leaf|].
        assert (concat (map (fun c => [c]) lt) = lt) as Ec.
        { clearbody lt. clear. induction lt as [|y l IH]; [reflexivity|]. cbn. now rewrite IH. }
        destruct (map (fun c => [c]) lt) eqn:E; cbn [otext].
        * rewrite <- Ec. reflexivity.
        * exact (eq_sym Ec).
      + cbn. constructor; auto. apply Forall_nil.
    - remember (k0 :: ks0) as kids eqn:Ek. assert (kids <> []) as Hne by (subst; discriminate). clear Ek.
      cbn [fold_left]. rewrite fold_left_app.
      assert (forall done acc, okacc done acc ->
        okacc (done ++ kids) (fold_left (add_item item_tree)
          (flat_map (fun k => char_items (ind ++ tab) ++ [witem w (fun t => t) (res_attrs w) false (ind ++ tab) k; Data nl]) kids) acc)) as K.
      { clear Gn Hne. induction IH as [|k ks Hk IH IHk]; intros done acc H; [now rewrite app_nil_r|].
        inversion Gk as [|? ? Gk0 Gk']; subst. cbn [flat_map]. rewrite fold_left_app, fold_left_app.
        replace (done ++ k :: ks) with ((done ++ [k]) ++ ks) by (now rewrite <- app_assoc).
        apply IHk; [assumption|]. cbn [fold_left].
        apply okacc_data; [|apply nl_layout].
        assert (tabs (ind ++ tab)) as Hi' by (apply tabs_app; [assumption|apply tabs_tab]).
        pose proof (okacc_chars done acc (ind ++ tab) H (tabs_layout _ Hi')) as (H1 & H2).
        specialize (Hk Gk0 false (ind ++ tab) Hi'). unfold res_item in Hk.
        destruct (fold_left (add_item item_tree) (char_items (ind ++ tab)) acc) as [tx kk]. cbn [fst snd] in *.
        destruct k as [t' a' x' kids']. cbn [witem] in *. cbn [add_item fst snd].
        split; [assumption|]. cbn [snd]. apply Forall2_app; [assumption|]. constructor; [exact Hk|constructor]. }
      assert (okacc [] (add_item item_tree (None, []) (Data nl))) as K0.
      { apply okacc_data; [|apply nl_layout]. split; [apply Forall_nil|constructor]. }
      specialize (K [] _ K0). cbn [app] in K.
      pose proof (okacc_chars _ _ ind K (tabs_layout _ Hi)) as (H1 & H2).
      match goal with |- context [fold_left ?f (char_items ind) ?acc] =>
        destruct (fold_left f (char_items ind) acc) as [tx kk] eqn:E end.
      cbn [fst snd] in *. apply reads_kids; auto. apply Forall_nil.
  Qed.

  (** C28: the text written for a document reads back as that document. *)
  Theorem C28_round_trip w n cnt nss :
    good_ns (w_ns w) -> good_node w n ->
    exists nss' s x,
      serialize w true n cnt nss = Ok (cnt, nss', s)
      /\ xml_read s = Some x /\ reads_as ws n x.
  Proof.
    intros G Gn.
    assert (ready w true (dset streq nss xml_uri (lit "xml"))) as Hr.
    { cbn [ready]. apply (in_dkeys_dset streq streq_spec). now left. }
    destruct (ser_ok w G n Gn true [] cnt _ Hr) as (nss' & E).
    exists nss', (xml_header ++ wtext w true [] n), (item_tree (res_item w true [] n)).
    split; [unfold serialize; now rewrite E|]. split; [|now apply reads_node; [| |constructor]].
    assert (lex LText (xml_header ++ wtext w true [] n)
            = Some (LText, [EData nl] ++ item_events (raw_item w true [] n) ++ [EData nl])) as L.
    { eapply lex_app_ok; [reflexivity|]. apply (lex_wtext w G n Gn true []). constructor. }
    unfold xml_read. rewrite (eol_id _ (lex_no_cr _ _ _ L)), L.
    cbn [app nsresolve]. rewrite (resolve_node w G n Gn true [] [] [EData nl] eq_refl).
    cbn [nsresolve option_map].
    change (EData nl :: item_events (res_item w true [] n) ++ [EData nl])
      with ([EData nl] ++ item_events (res_item w true [] n) ++ [EData nl]).
    rewrite tb_run_app.
    destruct (run_item (Data nl) [] [] tb_init init_state) as (s0 & E0 & H0).
    cbn [item_events] in E0. rewrite E0. clear E0. cbn [bind].
    rewrite tb_run_app.
    destruct (run_item (res_item w true [] n) _ _ _ H0) as (s1 & -> & H1). cbn [bind].
    destruct (run_item (Data nl) _ _ _ H1) as (s2 & E2 & H2). cbn [item_events] in E2. rewrite E2.
    cbn [push fst snd app] in H2.
    destruct n as [t a x kids]. unfold res_item in *. cbn [witem] in *.
    set (c := match kids with [] => _ | _ => _ end) in *.
    inversion H2 as [base ds tail Hs Ht E3 E4|]; subst.
    unfold tb_close. cbn [tb_elem tb_top].
    destruct Hs as [->|(l' & t' & a' & c' & ->)].
    - exfalso. cbn in E3. destruct ds as [|d ds]; [discriminate|]. cbn in E3.
      injection E3 as _ E3. destruct ds; discriminate.
    - assert (Child t' a' c' = Child t (res_attrs w true t a) c) as Ec.
      { assert (In (Child t' a' c') [Data nl; Child t (res_attrs w true t a) c; Data nl]) as Hin.
        { rewrite <- E3. apply in_app_iff. left. apply in_app_iff. right. now left. }
        cbn [In] in Hin. destruct Hin as [Hin|[Hin|[Hin|[]]]]; [discriminate|exact (eq_sym Hin)|discriminate]. }
      unfold last_child. rewrite items_tree_snoc. cbn [add_item snd]. rewrite last_opt_snoc.
      now rewrite Ec.
  Qed.

  (** C51: with declarations at the top the text written does not depend on the namespaces
      and counters left by earlier calls. *)
  Theorem C51_history_independent w n cnt nss cnt2 nss2 :
    good_ns (w_ns w) -> good_node w n ->
    exists s nss' nss2',
      serialize w true n cnt nss = Ok (cnt, nss', s)
      /\ serialize w true n cnt2 nss2 = Ok (cnt2, nss2', s).
  Proof.
    intros G Gn.
    assert (forall nss, ready w true (dset streq nss xml_uri (lit "xml"))) as Hr.
    { intro. cbn [ready]. apply (in_dkeys_dset streq streq_spec). now left. }
    destruct (ser_ok w G n Gn true [] cnt _ (Hr nss)) as (nss' & E).
    destruct (ser_ok w G n Gn true [] cnt2 _ (Hr nss2)) as (nss2' & E2).
    exists (xml_header ++ wtext w true [] n), nss', nss2'.
    split; unfold serialize; [now rewrite E|now rewrite E2].
  Qed.
End Tree.

(** * Examples, and where the round trip fails *)
Definition ex_writer : writer :=
  {| w_ns := [(xml_uri, lit "xml"); (silns, lit "sil")]; w_attord := []; w_maxats := 5;
     w_cdata := [lit "cr"] |}.
Definition ex_doc : node :=
  Node (lit "ldml") [] None
    [ Node (lit "special") [] None
        [Node (siltag (lit "font")) [(lit "name", lit "A<B"); (siltag (lit "size"), lit "1")] (Some (lit "x & y")) []];
      Node (lit "cr") [] (Some (lit "&a < b")) []; Node (lit "empty") [] None [] ].
Lemma ex_writer_ns : good_ns (w_ns ex_writer).
Proof.
  split.
  - split; [|split].
    + repeat constructor; cbn; intuition discriminate.
    + repeat constructor; cbn; intuition discriminate.
    + intros u p [H|[H|[]]]; injection H as <- <-; repeat split; cbn; intuition discriminate.
  - intros u p [H|[H|[]]]; injection H as <- <-.
    + repeat split; try (cbn; intuition discriminate); try (repeat constructor; cbn; discriminate).
    + repeat split; try (cbn; intuition discriminate); try (repeat constructor; cbn; discriminate).
Qed.
Lemma no_cdend_check s :
  (fix f l := match l with 93%N :: ((93%N :: 62%N :: _) as l') => false | _ :: l' => f l' | [] => true end) s = true ->
  no_cdend s.
Proof.
  intros H a b ->. induction a as [|c a IH]; [discriminate H|]. apply IH. clear IH.
  cbn [app] in H.
  destruct c as [|p]; [exact H|]. do 7 (destruct p as [p|p|]; try exact H).
  destruct (a ++ lit "]]>" ++ b) as [|d r]; [exact H|].
  destruct d as [|p]; [exact H|]. do 7 (destruct p as [p|p|]; try exact H).
  destruct r as [|d r]; [exact H|].
  destruct d as [|p]; [exact H|]. do 6 (destruct p as [p|p|]; try exact H). discriminate.
Qed.
Lemma ex_doc_good : good_node ex_writer ex_doc.
Proof.
  assert (forall k, In k [lit "ldml"; lit "special"; lit "name"; lit "cr"; lit "empty"] -> good_name (w_ns ex_writer) k) as Hp.
  { intros k H. left. cbn in H.
    repeat (destruct H as [<-|H]; [repeat split; try (cbn; intuition discriminate); repeat constructor|]).
    destruct H. }
  assert (forall l, In l [lit "font"; lit "size"] -> good_name (w_ns ex_writer) (siltag l)) as Hn.
  { intros l H. right. exists silns, (lit "sil"), l. split; [right; now left|]. split; [|reflexivity].
    cbn in H. repeat (destruct H as [<-|H]; [repeat constructor|]). destruct H. }
  assert (forall s, forallb (fun c => xml_char c && negb (N.eqb c 9) && negb (N.eqb c 10)) s = true -> good_value s) as Hv.
  { intros s H. apply Forall_forall. intros c Hc. rewrite forallb_forall in H. specialize (H c Hc).
    apply andb_prop in H as [H H10]. apply andb_prop in H as [H H9].
    apply negb_true_iff, N.eqb_neq in H10. apply negb_true_iff, N.eqb_neq in H9. auto. }
  assert (forall s, forallb xml_char s = true -> good_text s) as Hx.
  { intros s H. apply Forall_forall. now apply forallb_forall. }
  assert (forall s, good_text s /\ no_cdend s -> forall P : Prop, good_text s /\ (P -> no_cdend s)) as Hc by tauto.
  unfold ex_doc. constructor; [apply Hp; cbn; tauto|constructor|constructor|exact I|].
  constructor; [|constructor; [|constructor; [|constructor]]].
  - constructor; [apply Hp; cbn; tauto|constructor|constructor|exact I|].
    constructor; [|constructor]. constructor.
    + apply Hn. cbn. tauto.
    + repeat constructor; cbn; intuition discriminate.
    + constructor; [|constructor; [|constructor]]; cbn [fst snd]; split.
      * apply Hp; cbn; tauto.
      * now apply Hv.
      * apply Hn; cbn; tauto.
      * now apply Hv.
    + apply Hc. split; [now apply Hx|now apply no_cdend_check].
    + constructor.
  - constructor; [apply Hp; cbn; tauto|constructor|constructor| |constructor].
    apply Hc. split; [now apply Hx|now apply no_cdend_check].
  - constructor; [apply Hp; cbn; tauto|constructor|constructor|exact I|constructor].
Qed.
Example C28_example :
  good_ns (w_ns ex_writer) /\ good_node ex_writer ex_doc
  /\ exists nss, serialize ex_writer true ex_doc 0 []
     = Ok (0, nss, lit "<?xml version=""1.0"" encoding=""utf-8""?>" ++ nl
       ++ lit "<ldml xmlns:sil=""urn://www.sil.org/ldml/0.1"">" ++ nl
       ++ tab ++ lit "<special>" ++ nl
       ++ tab ++ tab ++ lit "<sil:font name=""A&lt;B"" sil:size=""1"">x &amp; y</sil:font>" ++ nl
       ++ tab ++ lit "</special>" ++ nl
       ++ tab ++ lit "<cr><![CDATA[" ++ nl ++ tab ++ tab ++ lit "&a < b" ++ nl ++ tab ++ lit "]]></cr>" ++ nl
       ++ tab ++ lit "<empty/>" ++ nl
       ++ lit "</ldml>" ++ nl).
Proof.
  split; [exact ex_writer_ns|]. split; [exact ex_doc_good|]. eexists. vm_compute. reflexivity.
Qed.

Definition ser_read (w : writer) (n : node) : option xnode :=
  match serialize w true n 0 [] with Ok (_, _, s) => xml_read s | Raise _ => None end.
Definition leaf (t : pystr) (a : list (pystr * pystr)) (x : option pystr) : node := Node t a x [].

(** a newline or tab in an attribute value comes back as a space *)
Theorem C28_attribute_newline_refuted :
  ser_read ex_writer (leaf (lit "a") [(lit "k", [65; 10; 9; 66]%N)] None)
  = Some (XNode (lit "a") [(lit "k", lit "A  B")] None None []).
Proof. vm_compute. reflexivity. Qed.
(** a CDATA text that contains the end mark cannot be read *)
Theorem C28_cdata_end_refuted :
  ser_read ex_writer (leaf (lit "cr") [] (Some (lit "a]]>b<c"))) = None.
Proof. vm_compute. reflexivity. Qed.
(** the text of an element that has children is not written *)
Theorem C28_mixed_text_refuted :
  exists x, ser_read ex_writer (Node (lit "a") [] (Some (lit "text")) [leaf (lit "b") [] None]) = Some x
  /\ xtext x = Some (nl ++ tab).
Proof. eexists. split; vm_compute; reflexivity. Qed.
(** an undeclared namespace is declared but its prefix is not used: the element comes back
    without its namespace *)
Theorem C28_undeclared_refuted :
  ser_read ex_writer (leaf (lit "{urn:x}a") [] None) = Some (XNode (lit "a") [] None None []).
Proof. vm_compute. reflexivity. Qed.

(** Without declarations at the top, a second document lacks the declarations that the first
    one made: the same document is written readably only once. *)
Theorem C51_topns_off_refuted :
  let n := leaf (siltag (lit "a")) [] None in
  exists nss s1 s2 x,
    serialize ex_writer false n 0 [] = Ok (0, nss, s1)
    /\ serialize ex_writer false n 0 nss = Ok (0, nss, s2)
    /\ xml_read s1 = Some x /\ xml_read s2 = None.
Proof.
  eexists _, _, _, _. repeat match goal with |- _ /\ _ => split end; vm_compute; reflexivity.
Qed.
