(** C102: adding elements, namespaces and the identity of a document with the writer. *)
From Coq Require Import String.
From Verif Require Import Py PyFacts M_LdmlBase M_Collation M_TreeBuilder M_Serialize M_Normalise M_Drafts M_Paths M_Writer S_Xml
  T_LdmlBase T_LdmlHash T_Collation2 T_TreeBuilder T_Normalise P_Serialize T_Serialize T_Drafts T_PathText T_Paths T_Ensure.
Local Open Scope list_scope.
Local Open Scope nat_scope.

(** * Namespaces *)
(** The prefix returned is the one of the uri afterwards; a uri that had one keeps it; nothing else changes. *)
Theorem C102_add_namespace : forall ns q u p ns',
  add_namespace ns q u = (p, ns') ->
  dget streq ns' u = Some p /\
  (forall v, v <> u -> dget streq ns' v = dget streq ns v) /\
  (forall p0, dget streq ns u = Some p0 -> p = p0 /\ ns' = ns) /\
  (dget streq ns u = None -> p = q).
Proof.
  intros ns q u p ns'. unfold add_namespace. destruct (dget streq ns u) as [p0|] eqn:E; intro H; injection H as <- <-.
  - repeat split; auto; congruence.
  - rewrite (dget_dset_same _ streq_spec). repeat split; intros; try congruence.
    now apply (dget_dset_other _ streq_spec).
Qed.

Lemma dset_new {X} (d : list (pystr * X)) k v : dget streq d k = None -> dset streq d k v = d ++ [(k, v)].
Proof.
  induction d as [|[k' v'] d IH]; cbn; [reflexivity|]. destruct (streq k k') eqn:E; [discriminate|].
  intro H. now rewrite IH.
Qed.
Lemma snoc_NoDup (l : list pystr) x : NoDup l -> ~ In x l -> NoDup (l ++ [x]).
Proof.
  intros H N. apply (Permutation_NoDup (l := x :: l)); [|now constructor].
  apply Permutation_cons_append.
Qed.

(** A new uri with a new proper prefix: documents with names in the namespace are written so that they are read back, and so
    are those that could be written before. *)
Theorem C102_declared : forall (ws : N -> bool) ns q u,
  ws 32%N = true /\ ws 9%N = true /\ ws 10%N = true ->
  good_ns ns -> ~ In u (map fst ns) -> ~ In q (map snd ns) ->
  plain_name q -> q <> lit "xml" -> good_value u -> u <> [] -> u <> xml_uri -> ~ In 125%N u ->
  let ns' := snd (add_namespace ns q u) in
  (forall l, good_local l -> good_name ns' (lit "{" ++ u ++ lit "}" ++ l)) /\
  (forall k, good_name ns k -> good_name ns' k) /\
  forall n cnt nss, good_node (etwrite_writer ns') n ->
    exists nss' s x, etwrite true (Some ns') n cnt nss = Ok (cnt, nss', s) /\ xml_read s = Some x /\ reads_as ws n x.
Proof.
  intros ws ns q u W [(N1 & N2 & T) G] Nu Nq Pq Xq Gu Eu Xu Bu ns'.
  assert (ns' = ns ++ [(u, q)]) as En.
  { unfold ns', add_namespace. assert (dget streq ns u = None) as D by now apply (dget_None _ streq_spec).
    rewrite D. cbn [snd]. now apply dset_new. }
  assert (good_ns ns') as Gn.
  { rewrite En. split; [split; [|split]|].
    - rewrite map_app. now apply snoc_NoDup.
    - rewrite map_app. now apply snoc_NoDup.
    - intros u' p' H. apply in_app_iff in H as [H|[H|[]]]; [now apply T|]. injection H as <- <-.
      destruct Pq as (P1 & _ & P3 & _). auto.
    - intros u' p' H. apply in_app_iff in H as [H|[H|[]]]; [now apply G|]. injection H as <- <-.
      repeat split; try apply Pq; auto; intro; contradiction. }
  split; [|split].
  - intros l Hl. right. exists u, q, l. split; [rewrite En; apply in_app_iff; right; now left|auto].
  - intros k [H|(u' & p' & l & H1 & H2 & H3)]; [now left|]. right. exists u', p', l.
    split; [rewrite En; apply in_app_iff; now left|auto].
  - intros n cnt nss Hn. unfold etwrite. cbn [init_ns bind]. now apply (C28_round_trip ws W (etwrite_writer ns')).
Qed.
Example C102_declared_case : let ns := w_ns ex_writer in
  good_ns ns /\ ~ In (lit "urn:x") (map fst ns) /\ ~ In (lit "x") (map snd ns) /\ plain_name (lit "x") /\
  lit "x" <> lit "xml" /\ good_value (lit "urn:x") /\ lit "urn:x" <> [] /\ lit "urn:x" <> xml_uri /\ ~ In 125%N (lit "urn:x") /\
  match etwrite true (Some (snd (add_namespace ns (lit "x") (lit "urn:x"))))
          (Node (lit "ldml") [] None [leaf (lit "{urn:x}a") [(siltag (lit "k"), lit "1")] None]) 0 [] with
  | Ok (_, _, s) => s = lit "<?xml version=""1.0"" encoding=""utf-8""?>" ++ nl
                        ++ lit "<ldml xmlns:sil=""urn://www.sil.org/ldml/0.1"" xmlns:x=""urn:x"">" ++ nl
                        ++ tab ++ lit "<x:a sil:k=""1""/>" ++ nl ++ lit "</ldml>" ++ nl
  | Raise _ => False
  end.
Proof.
  split; [exact ex_writer_ns|]. repeat split; try (cbn; intuition discriminate); try (repeat constructor; cbn; discriminate).
Qed.

(** The prefix of another uri is given again: names of both namespaces are written alike. *)
Theorem C102_shared_prefix_refuted :
  (forall ns q u1 u2 name, dget streq ns u1 = Some q -> dget streq ns u2 = None -> q <> [] -> ~ In 125%N u1 -> ~ In 125%N u2 ->
     let ns' := snd (add_namespace ns q u2) in
     localns ns' (lit "{" ++ u1 ++ lit "}" ++ name) = Ok (q ++ lit ":" ++ name) /\
     localns ns' (lit "{" ++ u2 ++ lit "}" ++ name) = Ok (q ++ lit ":" ++ name)) /\
  exists ns ns', add_namespace ns (lit "sil") (lit "urn:x") = (lit "sil", ns') /\
    exists nss s, etwrite true (Some ns') (Node (lit "ldml") [] None [leaf (siltag (lit "a")) [] None]) 0 [] = Ok (0, nss, s) /\
      xml_read s = Some (XNode (lit "ldml") [] (Some (nl ++ tab)) None [XNode (lit "{urn:x}a") [] None (Some nl) []]).
Proof.
  split.
  - intros ns q u1 u2 name H1 H2 Hq B1 B2 ns'.
    assert (dget streq ns' u1 = Some q /\ dget streq ns' u2 = Some q) as [D1 D2].
    { unfold ns', add_namespace. rewrite H2. cbn [snd]. rewrite (dget_dset_same _ streq_spec). split; [|reflexivity].
      rewrite (dget_dset_other _ streq_spec); congruence. }
    assert (forall u, ~ In 125%N u -> dget streq ns' u = Some q ->
              localns ns' (lit "{" ++ u ++ lit "}" ++ name) = Ok (q ++ lit ":" ++ name)) as L.
    { intros u Bu D. change (lit "{" ++ u ++ lit "}" ++ name) with (123%N :: u ++ 125%N :: name).
      unfold localns. rewrite N.eqb_refl. rewrite partition1_app by assumption. rewrite D. destruct q; [congruence|reflexivity]. }
    split; now apply L.
  - exists (w_ns ex_writer). eexists. split; [vm_compute; reflexivity|]. eexists _, _. split; vm_compute; reflexivity.
Qed.

(** * Writing an element tree *)
(** Without namespaces every namespace is lost: an element is written with its local name. *)
Theorem C102_etwrite_refuted : forall topns u l, ~ In 125%N u -> u <> [] -> u <> xml_uri ->
  exists nss n, etwrite topns None (leaf (lit "{" ++ u ++ lit "}" ++ l) [] None) 0 []
  = Ok (n, nss, xml_header ++ lit "<" ++ l ++ lit " xmlns:ns1=""" ++ protect attribprotect u ++ lit """/>" ++ nl).
Proof.
  intros topns u l B E X.
  assert (dmem streq (dset streq [] xml_uri (lit "xml")) u = false) as D.
  { unfold dmem. cbn [dset dget]. destruct (streq_spec u xml_uri); [contradiction|reflexivity]. }
  unfold etwrite. cbn [init_ns bind]. unfold serialize, leaf. cbn [ser].
  change (lit "{" ++ u ++ lit "}" ++ l) with (123%N :: u ++ 125%N :: l).
  cbn [etwrite_writer w_ns]. unfold localisens at 1. rewrite N.eqb_refl, partition1_app by assumption. cbn [dget bind].
  destruct u as [|c u]; [congruence|]. rewrite D. 
  assert (forall la nss, (if topns then Ok (let '(la, nss) := declare_all [] la nss in (1, la, nss))
     else declare_kids (etwrite_writer []) (lit "ns" ++ decstr 1) [] 1 la nss) = Ok (1, la, nss)) as R by (intros; now destruct topns).
  cbn [etwrite_writer w_ns] in R. rewrite R. cbn [bind nsprotect].
  eexists _, _. vm_compute (lit "ns" ++ decstr 1).
  cbn [dkeys map fst]. unfold sortedattrs. cbn [isort insert write_attrs].
  unfold localisens. cbn -[nl protect attribprotect]. generalize (protect attribprotect (c :: u)). intro pu.
  rewrite <- !app_assoc. cbn -[nl]. rewrite ?app_nil_r, <- ?app_assoc. reflexivity.
Qed.
(** a writer made without a table of namespaces fails; so does subelement, whatever is given *)
Theorem C102_fails_refuted :
  init_ns None None = Raise AttributeError /\
  forall ns parent tag kw, subelement ns parent tag kw = Raise NameError.
Proof. split; reflexivity. Qed.

(** * Adding an element *)
Lemma given_attrs_spec kw : forall d, NoDup (map fst kw) ->
  forall k v, dget streq (fold_left (fun d (kv : pystr * option pystr) => match snd kv with Some v => dset streq d (fst kv) v | None => d end) kw d) k = Some v
  <-> In (k, Some v) kw \/ (dget streq d k = Some v /\ forall w, ~ In (k, Some w) kw).
Proof.
  induction kw as [|[k1 o] kw IH]; intros d ND k v.
  - cbn. intuition.
  - cbn [map fst] in ND. inversion ND as [|? ? N1 ND']; subst. cbn [fold_left fst snd].
    assert (forall w, In (k1, w) kw -> False) as F.
    { intros w H. apply N1. change k1 with (fst (k1, w)). now apply in_map. }
    destruct o as [v1|]; rewrite IH by assumption.
    + rewrite (dget_dset _ streq_spec). destruct (streq_spec k k1) as [->|Nk].
      * split.
        -- intros [H|[H _]]; [elim (F _ H)|]. left. left. congruence.
        -- intros [[H|H]|[H1 H2]]; [|elim (F _ H)|elim (H2 v1); now left].
           right. split; [congruence|]. intros w Hw. exact (F _ Hw).
      * split.
        -- intros [H|[H1 H2]]; [left; now right|]. right. split; [assumption|]. intros w [Hw|Hw]; [congruence|exact (H2 _ Hw)].
        -- intros [[H|H]|[H1 H2]]; [congruence|now left|]. right. split; [assumption|]. intros w Hw. apply (H2 w). now right.
    + split.
      * intros [H|[H1 H2]]; [left; now right|]. right. split; [assumption|]. intros w [Hw|Hw]; [congruence|exact (H2 _ Hw)].
      * intros [[H|H]|[H1 H2]]; [congruence|now left|]. right. split; [assumption|]. intros w Hw. apply (H2 w). now right.
Qed.
(** The new element is the last of the parent, with the attributes that are not None, no text and no children. *)
Theorem C102_addnode : forall parent tag kw, NoDup (map fst kw) ->
  exists a, addnode_ parent tag kw
    = Node (ntag parent) (nattrs parent) (ntext parent) (nkids parent ++ [Node tag a None []]) /\
  forall k v, dget streq a k = Some v <-> In (k, Some v) kw.
Proof.
  intros [t a x kids] tag kw ND. exists (given_attrs (fun k => k) kw). split; [reflexivity|].
  intros k v. unfold given_attrs. rewrite given_attrs_spec by assumption. cbn. split; [intros [H|[H _]]; [assumption|discriminate]|auto].
Qed.

(** * The identity of a document *)
Lemma set_attrs_fields c a : ltag (set_attrs c a) = ltag c /\ lattrs (set_attrs c a) = a /\ ltext (set_attrs c a) = ltext c /\
  lalts (set_attrs c a) = lalts c /\ lkids (set_attrs c a) = lkids c.
Proof. destruct c. cbn. auto. Qed.
(** other elements are not touched by setting the attributes of one *)
Lemma put_attrs_other a p : forall root n, at_place root p = Some n -> forall q y, q <> p -> at_place root q = Some y ->
  exists z, at_place (put_at root p (set_attrs n a)) q = Some z /\ same_element y z.
Proof.
  induction p as [|[i|k] p IH]; intros root n; cbn [at_place put_at].
  - intro E. injection E as ->. intros [|[j|k] q] y Nq; [congruence| |]; cbn [at_place];
      destruct (set_attrs_fields n a) as (_ & _ & _ & Fa & Fk); rewrite ?Fa, ?Fk; intro H; exists y; (split; [exact H|apply same_refl]).
  - destruct (nth_error (lkids root) i) as [c|] eqn:E; [|discriminate]. intros H q y Nq.
    destruct (set_kids_fields root (replace_nth i (put_at c p (set_attrs n a)) (lkids root))) as (F1 & F2 & F3 & _ & _ & F6 & F7).
    destruct q as [|[j|k] q]; cbn [at_place].
    + intro E'. injection E' as <-. eexists. split; [reflexivity|]. repeat split; assumption.
    + rewrite F7, nth_error_replace. destruct (Nat.eqb_spec i j) as [<-|Nij].
      * rewrite E. apply (IH c n H). congruence.
      * destruct (nth_error (lkids root) j); [|discriminate]. intro H'. exists y. split; [assumption|apply same_refl].
    + rewrite F6. intro H'. exists y. split; [assumption|apply same_refl].
  - destruct (lalts root) as [alts|] eqn:Ea; [|discriminate].
    destruct (dget streq alts k) as [c|] eqn:E; [|discriminate]. intros H q y Nq.
    destruct (set_alts_fields root (Some (dset streq alts k (put_at c p (set_attrs n a))))) as (F1 & F2 & F3 & _ & _ & F6 & F7).
    destruct q as [|[j|k'] q]; cbn [at_place].
    + intro E'. injection E' as <-. eexists. split; [reflexivity|]. repeat split; assumption.
    + rewrite F7. intro H'. exists y. split; [assumption|apply same_refl].
    + rewrite F6, Ea. rewrite (dget_dset _ streq_spec). destruct (streq_spec k' k) as [->|Nk].
      * rewrite E. apply (IH c n H). congruence.
      * intro H'. exists y. split; [assumption|apply same_refl].
Qed.
Lemma set_all_spec (kws : list (pystr * pystr)) : forall a, NoDup (map fst kws) ->
  (forall k v, In (k, v) kws -> dget streq (fold_left (fun a kv => dset streq a (fst kv) (snd kv)) kws a) k = Some v) /\
  (forall k, ~ In k (map fst kws) -> dget streq (fold_left (fun a kv => dset streq a (fst kv) (snd kv)) kws a) k = dget streq a k).
Proof.
  induction kws as [|[k1 v1] kws IH]; intros a ND; [split; [intros k v []|reflexivity]|].
  cbn [map fst] in ND. inversion ND as [|? ? N1 ND']; subst. cbn [fold_left fst snd].
  destruct (IH (dset streq a k1 v1) ND') as [I1 I2]. split.
  - intros k v [H|H]; [|now apply I1]. injection H as <- <-. rewrite I2 by assumption. apply (dget_dset_same _ streq_spec).
  - intros k Hk. cbn [map fst In] in Hk. rewrite I2 by tauto. apply (dget_dset_other _ streq_spec). intros ->. apply Hk. now left.
Qed.

Section Identity.
  Variable ws : N -> bool.
  Variable hasher : pystr -> Z.
  Variable m : meta.
  Variable dd : pystr.
  Variable useDrafts : bool.
  Variable ud uid : option pystr.
  Variable ns : list (pystr * pystr).
  Notation ensure := (ensure_path ws hasher m dd useDrafts ud uid ns).
  Notation finds := (findall ws hasher m dd useDrafts ud uid ns).
  Notation identity := (add_silidentity ws hasher m dd useDrafts ud uid ns).

  (** [with_attrs root root' p kws]: root' is root, but the element at p has the attributes kws *)
  Definition with_attrs (root root' : lnode) (p : place_in_doc) (kws : list (pystr * pystr)) : Prop :=
    exists s s', at_place root p = Some s /\ at_place root' p = Some s' /\
      ltag s' = ltag s /\ ltext s' = ltext s /\ lkids s' = lkids s /\ lalts s' = lalts s /\
      (forall k v, In (k, v) kws -> lget s' k = Some v) /\
      (forall k, ~ In k (map fst kws) -> lget s' k = lget s k) /\
      (forall q y, q <> p -> at_place root q = Some y -> exists z, at_place root' q = Some z /\ same_element y z).

  Lemma identity_set root root1 p l s kws : NoDup (map fst kws) ->
    ensure root [] silidentity_path None None None None false None = Ok (root1, p :: l) -> at_place root1 p = Some s ->
    exists root', identity root kws = Ok root' /\ with_attrs root1 root' p kws.
  Proof.
    intros ND E Hs. set (a := fold_left (fun a kv => dset streq a (fst kv) (snd kv)) kws (lattrs s)).
    exists (put_at root1 p (set_attrs s a)). split.
    - unfold M_Writer.add_silidentity. rewrite E. cbn [bind snd fst]. rewrite Hs. reflexivity.
    - exists s, (set_attrs s a). split; [exact Hs|]. split; [now apply at_put_at with s|].
      destruct (set_attrs_fields s a) as (-> & Ea & -> & -> & ->). unfold lget. rewrite Ea.
      destruct (set_all_spec kws (lattrs s) ND) as [A1 A2]. repeat split; auto.
      intros q y Nq Hq. now apply put_attrs_other.
  Qed.

  (** The document has the element: the first one found gets the attributes. *)
  Theorem C102_silidentity : forall root kws steps w,
    NoDup (map fst kws) -> read_path ws ns silidentity_path = Ok steps -> walk root steps w ->
    exists root' p l, finds root [] silidentity_path = Ok (root, p :: l) /\
      identity root kws = Ok root' /\ with_attrs root root' p kws.
  Proof.
    intros root kws steps w ND Hp Hw.
    destruct (C27_found ws hasher m dd useDrafts ud uid ns root [] root silidentity_path steps None None None w eq_refl Hp Hw)
      as (l & E & F & Hin).
    destruct l as [|p l]; [destruct Hin|].
    assert (exists s, at_place root p = Some s) as [s Hs].
    { destruct (C26_found ws hasher m dd useDrafts ud uid ns root [] root silidentity_path steps None None None None eq_refl Hp)
        as (lw & El & Hl & _). unfold findall in F. rewrite El in F. injection F as F.
      destruct lw as [|w0 lw]; [discriminate|]. cbn [map] in F. injection F as <- _.
      destruct (walk_at root steps w0) as [c Hc]; [apply Hl; now left|]. now exists c. }
    destruct (identity_set root root p l s kws ND E Hs) as (root' & H1 & H2). exists root', p, l. auto.
  Qed.
  (** It has not: the missing elements are added, nothing else, and the new one gets the attributes. *)
  Theorem C102_silidentity_new : forall root kws steps,
    NoDup (map fst kws) -> read_path ws ns silidentity_path = Ok steps -> (forall w, ~ walk root steps w) ->
    Forall (creatable ns) steps -> (forall st, In st steps -> keys_decide hasher m useDrafts ud root ud st) ->
    exists root1 root' p, only_added root root1 p None /\ finds root1 [] silidentity_path = Ok (root1, [p]) /\
      identity root kws = Ok root' /\ with_attrs root1 root' p kws.
  Proof.
    intros root kws steps ND Hp Nw Hc Hk.
    destruct (C27_created ws hasher m dd useDrafts ud uid ns root [] root silidentity_path steps None None None None eq_refl Hp Nw Hc Hk)
      as (root1 & p & E & F & O).
    assert (exists s, at_place root1 p = Some s) as [s Hs].
    { destruct (C26_found ws hasher m dd useDrafts ud uid ns root1 [] root1 silidentity_path steps None None None None eq_refl Hp)
        as (lw & El & Hl & _). unfold findall in F. rewrite El in F. injection F as F.
      destruct lw as [|w0 lw]; [discriminate|]. cbn [map] in F. injection F as <- _.
      destruct (walk_at root1 steps w0) as [c Hc']; [apply Hl; now left|]. now exists c. }
    destruct (identity_set root root1 p [] s kws ND E Hs) as (root' & H1 & H2). exists root1, root', p. auto.
  Qed.
End Identity.

(** The table of a document that was read (ldml.py 417-418) reads the path as three names. *)
Definition doc_ns : list (pystr * pystr) := [(xml_uri, lit "xml"); (silns, lit "sil")].
Definition identity_steps : list pathstep := [(lit "identity", []); (lit "special", []); (siltag (lit "identity"), [])].
Lemma identity_path_read : forall ws, read_path ws doc_ns silidentity_path = Ok identity_steps.
Proof. intro ws. vm_compute. reflexivity. Qed.
Lemma identity_creatable : Forall (creatable doc_ns) identity_steps.
Proof.
  apply Forall_forall. intros st [<-|[<-|[<-|[]]]]; (split; [vm_compute; reflexivity|split; [constructor|intros []]]).
Qed.
Definition ex_doc102 (special : list node) : lnode := ex_load (Node (lit "ldml") [] None [Node (lit "identity") [] None special]).
Example C102_silidentity_case : exists w, walk (ex_doc102 [Node (lit "special") [] None [Node (siltag (lit "identity")) [(lit "uid", lit "1")] None []]]) identity_steps w.
Proof. exists [0; 0; 0]. apply walks_spec. vm_compute. now left. Qed.
Example C102_silidentity_new_case :
  (forall w, ~ walk (ex_doc102 []) identity_steps w) /\
  (forall st, In st identity_steps -> keys_decide toy_hash ex_keys true None (ex_doc102 []) None st) /\
  exists root', add_silidentity blank toy_hash ex_keys (lit "unconfirmed") true None None doc_ns (ex_doc102 []) [(lit "uid", lit "7")] = Ok root' /\
    match at_place root' [K 0; K 0; K 0] with
    | Some s => ltag s = siltag (lit "identity") /\ lattrs s = [(lit "uid", lit "7")]
    | None => False
    end.
Proof.
  split; [|split].
  - intros w W. apply walks_spec in W. vm_compute in W. exact W.
  - intros st Hst _ q x Hq.
    assert (x = ex_doc102 [] \/ (exists y, nth_error (lkids (ex_doc102 [])) 0 = Some y /\ x = y)) as Hx.
    { destruct q as [|[[|[|i]]|k] q]; cbn in Hq; try discriminate; [injection Hq as <-; auto|].
      right. eexists. split; [reflexivity|].
      destruct q as [|[[|i]|k] q]; cbn in Hq; try discriminate. injection Hq as <-. reflexivity. }
    cbn in Hst. destruct Hx as [->|(y & Hy & ->)].
    + destruct Hst as [<-|[<-|[<-|[]]]]; vm_compute; discriminate || reflexivity.
    + vm_compute in Hy. injection Hy as <-. destruct Hst as [<-|[<-|[<-|[]]]]; vm_compute; discriminate || reflexivity.
  - eexists. split; [vm_compute; reflexivity|]. vm_compute. auto.
Qed.
