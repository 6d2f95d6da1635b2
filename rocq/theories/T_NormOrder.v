(** C21, continued: the order of siblings with the same name, by their attributes. *)
From Coq Require Import String.
From Verif Require Import Py PyFacts M_LdmlBase M_TreeBuilder M_Serialize M_Normalise S_Xml P_Serialize T_LdmlBase
  T_TreeBuilder T_Normalise T_Serialize.
Local Open Scope list_scope.
Local Open Scope nat_scope.

Section Spec.
  Variable lower : pystr -> pystr.
  Variable m : meta.

  (** the place the DTD gives to an attribute of an element *)
  Definition attr_place (tag k : pystr) : nat :=
    match dget streq (m_attord m) tag with
    | Some order => match dget streq order k with Some i => i | None => m_maxats m end
    | None => m_maxats m
    end.
  (** the text a value is sorted by: its place in the list of values if the DTD lists the values of
      the attribute, after all of these if it is not listed, and the value in lower case otherwise *)
  Inductive sorts_as (tag k v : pystr) : pystr -> Prop :=
  | Sorts_listed ks vals s : dget streq (m_attvals m) tag = Some ks -> dget streq ks k = Some vals ->
      dget streq vals v = Some s -> sorts_as tag k v s
  | Sorts_unlisted ks vals : dget streq (m_attvals m) tag = Some ks -> dget streq ks k = Some vals ->
      dget streq vals v = None -> sorts_as tag k v (decstr (List.length vals) ++ v)
  | Sorts_other : (forall ks, dget streq (m_attvals m) tag = Some ks -> dget streq ks k = None) ->
      sorts_as tag k v (lower v).
  (** [l]: the attributes of [x] in the order of the DTD, with the texts to sort by *)
  Definition attributes_of (x : node) (l : list (pystr * pystr)) : Prop :=
    exists as_, Permutation as_ (nattrs x)
      /\ StronglySorted (fun p q => attr_place (ntag x) (fst p) < attr_place (ntag x) (fst q)
           \/ attr_place (ntag x) (fst p) = attr_place (ntag x) (fst q) /\ strcmp (fst p) (fst q) = Lt) as_
      /\ Forall2 (fun p q => fst q = fst p /\ sorts_as (ntag x) (fst p) (snd p) (snd q)) as_ l.
  (** the first difference decides; what comes to its end first comes first *)
  Inductive not_after : list (pystr * pystr) -> list (pystr * pystr) -> Prop :=
  | NA_end l : not_after [] l
  | NA_name k v l k' v' l' : strcmp k k' = Lt -> not_after ((k, v) :: l) ((k', v') :: l')
  | NA_value k v l v' l' : strcmp v v' = Lt -> not_after ((k, v) :: l) ((k, v') :: l')
  | NA_same k v l l' : not_after l l' -> not_after ((k, v) :: l) ((k, v) :: l').
End Spec.

Section Proof.
  Variable ws : N -> bool.
  Variable lower : pystr -> pystr.
  Variable m : meta.
  Notation norm := (normalise ws lower m).

  Lemma sorts_as_fun tag k v s : sorts_as lower m tag k v s -> s = attr_value_key lower m tag k v.
  Proof.
    intros [ks vals s' E1 E2 E3|ks vals E1 E2 E3|H]; unfold attr_value_key.
    - now rewrite E1, E2, E3.
    - now rewrite E1, E2, E3.
    - destruct (dget streq (m_attvals m) tag) as [ks|] eqn:E; [|reflexivity]. now rewrite (H ks eq_refl).
  Qed.
  Definition flat (l : list (pystr * pystr)) : list pystr := flat_map (fun kv => [fst kv; snd kv]) l.
  Lemma flat_not_after l : forall l', lcmp strcmp (flat l) (flat l') <> Gt -> not_after l l'.
  Proof.
    induction l as [|[k v] l IH]; intros [|[k' v'] l'] H; try (constructor; fail).
    - exfalso. apply H. reflexivity.
    - unfold flat in H. cbn [flat_map app fst snd lcmp] in H.
      destruct (strcmp k k') eqn:E; [|now constructor|congruence]. apply strcmp_eq in E. subst k'.
      destruct (strcmp v v') eqn:E; [|now constructor|congruence]. apply strcmp_eq in E. subst v'.
      apply NA_same, IH. exact H.
  Qed.
  Lemma attributes_key x l : NoDup (map fst (nattrs x)) -> attributes_of lower m x l ->
    snd (keyel lower m [] x) = ntag x :: flat l.
  Proof.
    intros N (as_ & P & S & F). unfold keyel. cbn [snd]. f_equal.
    assert (sortedattrs (meta_writer m) (ntag x) (dkeys (nattrs x)) = map fst as_) as ->.
    { rewrite (sortedattrs_perm (meta_writer m) (ntag x) (dkeys (nattrs x)) (map fst as_))
        by (apply Permutation_map, Permutation_sym, P).
      unfold sortedattrs. symmetry. apply (sorted_perm_unique (attr_leb (meta_writer m) (ntag x))).
      - intros a b _ _. apply attr_leb_antisym.
      - clear P F N. induction S as [|p r S IH F]; cbn [map]; constructor; [exact IH|].
        apply Forall_map. eapply Forall_impl; [|exact F]. cbn beta. intros q Hq.
        unfold attr_leb. change (attr_order (meta_writer m) (ntag x)) with (attr_place m (ntag x)).
        destruct Hq as [Hq|[Hq1 Hq2]].
        + now rewrite (proj2 (Nat.compare_lt_iff _ _) Hq).
        + rewrite Hq1, Nat.compare_refl. unfold strleb. now rewrite Hq2.
      - apply isort_sorted; [intros a b; apply attr_leb_total|intros a b c; apply attr_leb_trans].
      - apply isort_perm. }
    assert (forall k v, In (k, v) as_ -> dget streq (nattrs x) k = Some v) as G.
    { intros k v H. apply (dget_NoDup_In streq streq_spec); [exact N|]. now apply (Permutation_in _ P). }
    clear P S N. revert G. induction F as [|[k v] [k' s] as_ l [E1 E2] F IH]; intro G; [reflexivity|].
    cbn [map flat_map fst snd flat] in *. subst k'. apply sorts_as_fun in E2. subst s.
    unfold flat. cbn [flat_map fst snd]. rewrite (G k v) by (now left).
    cbn [app]. f_equal. f_equal. apply IH. intros k0 v0 H. apply G. now right.
  Qed.
  Lemma keyel_snd t t' x : snd (keyel lower m t x) = snd (keyel lower m t' x).
  Proof. reflexivity. Qed.
  Lemma sorted_pair (A : Type) (R : A -> A -> Prop) l : StronglySorted R l ->
    forall pre u mid v post, l = pre ++ u :: mid ++ v :: post -> R u v.
  Proof.
    induction 1 as [|y l S IH F]; intros pre u mid v post E; [destruct pre; discriminate|].
    destruct pre as [|p pre]; cbn in E; injection E as -> E; [|eauto].
    rewrite Forall_forall in F. apply F. rewrite E. apply in_app_iff. right. now left.
  Qed.
  (** Of two siblings with the same place and name the first one does not come after the second one by its
      attributes. *)
  Theorem C21_attribute_order t a x kids pre u mid v post lu lv :
    nkids (norm (Node t a x kids)) = pre ++ u :: mid ++ v :: post ->
    ntag u = ntag v ->
    NoDup (map fst (nattrs u)) -> NoDup (map fst (nattrs v)) ->
    attributes_of lower m u lu -> attributes_of lower m v lv ->
    not_after lu lv.
  Proof.
    intros E T Nu Nv Au Av. cbn [normalise nkids] in E.
    pose proof (isort_sorted (el_leb lower m t) (el_leb_total lower m t) (el_leb_trans lower m t) (map norm kids)) as S.
    pose proof (sorted_pair _ _ _ S _ _ _ _ _ E) as L. unfold el_leb, key_leb in L.
    rewrite (keyel_snd t [] u), (keyel_snd t [] v) in L.
    rewrite (attributes_key u lu), (attributes_key v lv) in L by assumption.
    assert (fst (keyel lower m t u) = fst (keyel lower m t v)) as Er by (unfold keyel; cbn [fst]; now rewrite T).
    rewrite Er, Nat.compare_refl, T in L. cbn [lcmp] in L. rewrite (proj2 (strcmp_eq (ntag v) (ntag v)) eq_refl) in L.
    apply flat_not_after. intro G. rewrite G in L. discriminate.
  Qed.
End Proof.

(** Two zones: the attribute type comes before the attribute alt, and the values of type are listed. *)
Definition ex_attr_meta : meta :=
  {| m_keys := []; m_nonkey := []; m_key := []; m_attord := [(lit "zone", [(lit "type", 1); (lit "alt", 2)])];
     m_maxats := 9; m_elord := []; m_maxels := 9;
     m_attvals := [(lit "zone", [(lit "type", [(lit "z", lit "0"); (lit "b", lit "1")])])]; m_serial := []; m_blocks := [] |}.
Definition ex_zone (ty alt : string) : node := Node (lit "zone") [(lit "alt", lit alt); (lit "type", lit ty)] None [].
Example C21_attribute_example :
  let n := Node (lit "zones") [] None [ex_zone "a" "A"; ex_zone "b" "y"; ex_zone "b" "X"; ex_zone "z" "q"] in
  nkids (normalise ascii_ws (fun s => map (fun c => if N.ltb c 97 then N.add c 32 else c) s) ex_attr_meta n)
  = [ex_zone "z" "q"; ex_zone "b" "X"; ex_zone "b" "y"; ex_zone "a" "A"]
  /\ attributes_of (fun s => s) ex_attr_meta (ex_zone "a" "A") [(lit "type", lit "2a"); (lit "alt", lit "A")].
Proof.
  split; [vm_compute; reflexivity|].
  exists [(lit "type", lit "a"); (lit "alt", lit "A")]. split; [apply perm_swap|]. split.
  - constructor; [constructor; [constructor|constructor]|]. constructor; [left; vm_compute; lia|constructor].
  - constructor; [|constructor; [|constructor]]; (split; [reflexivity|]); cbn [fst snd ex_zone ntag].
    + apply (Sorts_unlisted _ _ _ _ _ [(lit "type", [(lit "z", lit "0"); (lit "b", lit "1")])] [(lit "z", lit "0"); (lit "b", lit "1")]);
        vm_compute; reflexivity.
    + apply Sorts_other. intros ks E. vm_compute in E. injection E as <-. vm_compute. reflexivity.
Qed.
