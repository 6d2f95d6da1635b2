(** C27: ensure_path finds or creates. *)
From Coq Require Import String.
From Verif Require Import Py PyFacts M_LdmlBase M_Collation M_Serialize M_Normalise M_Drafts M_Paths.
From Verif Require Import T_Drafts T_Paths T_PathText.
Local Open Scope list_scope.
Local Open Scope nat_scope.

(** * Specification *)

(** the same element as far as its own data goes *)
Definition same_element (x y : lnode) : Prop :=
  ltag y = ltag x /\ lattrs y = lattrs x /\ ltext y = ltext x.

(** [root'] is [root] with elements added on the way to [p] only: every element of [root] is at
    its old place, unchanged, and every new element is on the way to [p] and has the text
    [text] *)
Record only_added (root root' : lnode) (p : place_in_doc) (text : option pystr) : Prop := {
  oa_kept : forall q x, at_place root q = Some x ->
    exists y, at_place root' q = Some y /\ same_element x y;
  oa_new : forall q y, at_place root' q = Some y -> at_place root q = None ->
    (exists r, p = q ++ r) /\ ltext y = text
}.

(** * Proof *)
Lemma nth_error_replace {X} i (x : X) l j :
  nth_error (replace_nth i x l) j
  = if Nat.eqb i j then (match nth_error l j with Some _ => Some x | None => None end) else nth_error l j.
Proof.
  revert i j. induction l as [|y l IH]; intros [|i] [|j]; cbn; try reflexivity.
  - destruct (Nat.eqb i j); reflexivity.
  - apply IH.
Qed.
Lemma set_kids_fields c a :
  ltag (set_kids c a) = ltag c /\ lattrs (set_kids c a) = lattrs c /\ ltext (set_kids c a) = ltext c /\
  lah (set_kids c a) = lah c /\ lch (set_kids c a) = lch c /\ lalts (set_kids c a) = lalts c /\
  lkids (set_kids c a) = a.
Proof. destruct c. cbn. auto 10. Qed.
Lemma same_refl x : same_element x x. Proof. repeat split. Qed.
Lemma same_trans x y z : same_element x y -> same_element y z -> same_element x z.
Proof. unfold same_element. intuition congruence. Qed.

(** replacing an element *)
Lemma at_put_at root p x n : at_place root p = Some n -> at_place (put_at root p x) p = Some x.
Proof.
  revert root. induction p as [|[i|k] p IH]; intro root; cbn; [reflexivity| |].
  - destruct (nth_error (lkids root) i) as [c|] eqn:E; [|discriminate]. intro H.
    destruct (set_kids_fields root (replace_nth i (put_at c p x) (lkids root))) as (_ & _ & _ & _ & _ & _ & ->).
    rewrite nth_error_replace, Nat.eqb_refl, E. now apply IH.
  - destruct (lalts root) as [alts|] eqn:Ea; [|discriminate].
    destruct (dget streq alts k) as [c|] eqn:E; [|discriminate]. intro H.
    destruct (set_alts_fields root (Some (dset streq alts k (put_at c p x)))) as (_ & _ & _ & _ & _ & -> & _).
    rewrite (dget_dset_same _ streq_spec). now apply IH.
Qed.

(** everything in [n] is in [x], at the same place; then the same holds for the documents *)
Lemma put_at_kept p : forall root n x, at_place root p = Some n -> same_element n x ->
  (forall q y, at_place n q = Some y -> exists z, at_place x q = Some z /\ same_element y z) ->
  same_element root (put_at root p x) /\
  (forall q y, at_place root q = Some y -> exists z, at_place (put_at root p x) q = Some z /\ same_element y z).
Proof.
  induction p as [|[i|k] p IH]; intros root n x; cbn [at_place put_at].
  - intro E. injection E as ->. auto.
  - destruct (nth_error (lkids root) i) as [c|] eqn:E; [|discriminate]. intros H S K1.
    destruct (IH c n x H S K1) as [Sc Kc].
    destruct (set_kids_fields root (replace_nth i (put_at c p x) (lkids root))) as (F1 & F2 & F3 & _ & _ & F6 & F7).
    assert (same_element root (set_kids root (replace_nth i (put_at c p x) (lkids root)))) as Sr
      by (repeat split; assumption).
    split; [assumption|]. intros [|[j|k] q] y; cbn [at_place].
    + intro E'. injection E' as <-. eauto.
    + rewrite F7, nth_error_replace. destruct (Nat.eqb_spec i j) as [<-|Nij].
      * rewrite E. apply Kc.
      * destruct (nth_error (lkids root) j); [|discriminate]. intro H'. exists y. split; [assumption|apply same_refl].
    + rewrite F6. intro H'. exists y. split; [assumption|apply same_refl].
  - destruct (lalts root) as [alts|] eqn:Ea; [|discriminate].
    destruct (dget streq alts k) as [c|] eqn:E; [|discriminate]. intros H S K1.
    destruct (IH c n x H S K1) as [Sc Kc].
    destruct (set_alts_fields root (Some (dset streq alts k (put_at c p x)))) as (F1 & F2 & F3 & _ & _ & F6 & F7).
    assert (same_element root (set_alts root (Some (dset streq alts k (put_at c p x))))) as Sr
      by (repeat split; assumption).
    split; [assumption|]. intros [|[j|k'] q] y; cbn [at_place].
    + intro E'. injection E' as <-. eauto.
    + rewrite F7. intro H'. exists y. split; [assumption|apply same_refl].
    + rewrite F6, Ea, (dget_dset _ streq_spec). destruct (streq_spec k' k) as [->|Nk].
      * rewrite E. apply Kc.
      * intro H'. exists y. split; [assumption|apply same_refl].
Qed.
(** nothing new outside *)
Lemma put_at_new p : forall root n x q y, at_place root p = Some n ->
  at_place (put_at root p x) q = Some y -> at_place root q = None ->
  exists r, q = p ++ r /\ at_place x r = Some y /\ at_place n r = None.
Proof.
  induction p as [|[i|k] p IH]; intros root n x q y; cbn [at_place put_at].
  - intro E. injection E as ->. intros H1 H2. exists q. auto.
  - destruct (nth_error (lkids root) i) as [c|] eqn:E; [|discriminate]. intro H.
    destruct (set_kids_fields root (replace_nth i (put_at c p x) (lkids root))) as (F1 & F2 & F3 & _ & _ & F6 & F7).
    destruct q as [|[j|k] q]; cbn [at_place]; [discriminate| |].
    + rewrite F7, nth_error_replace. destruct (Nat.eqb_spec i j) as [<-|Nij]; [|congruence].
      rewrite E. intros H1 H2. destruct (IH c n x q y H H1 H2) as (r & -> & H3 & H4).
      exists r. auto.
    + rewrite F6. congruence.
  - destruct (lalts root) as [alts|] eqn:Ea; [|discriminate].
    destruct (dget streq alts k) as [c|] eqn:E; [|discriminate]. intro H.
    destruct (set_alts_fields root (Some (dset streq alts k (put_at c p x)))) as (F1 & F2 & F3 & _ & _ & F6 & F7).
    destruct q as [|[j|k'] q]; cbn [at_place]; [discriminate| |].
    + rewrite F7. congruence.
    + rewrite F6, Ea, (dget_dset _ streq_spec). destruct (streq_spec k' k) as [->|Nk]; [|congruence].
      rewrite E. intros H1 H2. destruct (IH c n x q y H H1 H2) as (r & -> & H3 & H4).
      exists r. auto.
Qed.

(** appending a childless element *)
Definition leaf_node (e : lnode) : Prop := lkids e = [] /\ lalts e = None.
Lemma append_kept n e q y : at_place n q = Some y ->
  exists z, at_place (set_kids n (lkids n ++ [e])) q = Some z /\ same_element y z.
Proof.
  destruct (set_kids_fields n (lkids n ++ [e])) as (F1 & F2 & F3 & _ & _ & F6 & F7).
  destruct q as [|[j|k] q]; cbn [at_place].
  - intro E. injection E as <-. eexists. split; [reflexivity|]. repeat split; assumption.
  - rewrite F7. destruct (nth_error (lkids n) j) as [c|] eqn:E; [|discriminate].
    rewrite nth_error_app1 by (apply nth_error_Some; congruence). rewrite E.
    intro H. exists y. split; [assumption|apply same_refl].
  - rewrite F6. intro H. exists y. split; [assumption|apply same_refl].
Qed.
Lemma append_new n e q y : leaf_node e ->
  at_place (set_kids n (lkids n ++ [e])) q = Some y -> at_place n q = None ->
  q = [K (List.length (lkids n))] /\ y = e.
Proof.
  intros [L1 L2]. destruct (set_kids_fields n (lkids n ++ [e])) as (F1 & F2 & F3 & _ & _ & F6 & F7).
  destruct q as [|[j|k] q]; cbn [at_place]; [discriminate| |rewrite F6; congruence].
  rewrite F7. destruct (Nat.lt_ge_cases j (List.length (lkids n))) as [Lj|Lj].
  { rewrite nth_error_app1 by assumption. congruence. }
  rewrite nth_error_app2 by assumption. destruct (j - List.length (lkids n)) as [|d] eqn:Ed; cbn [nth_error].
  2:{ destruct d; discriminate. }
  assert (j = List.length (lkids n)) as -> by lia. intros H _.
  destruct q as [|[j|k] q]; cbn [at_place] in H.
  - injection H as <-. auto.
  - rewrite L1 in H. destruct j; discriminate.
  - rewrite L2 in H. discriminate.
Qed.

Section Ensure.
  Variable ws : N -> bool.
  Variable hasher : pystr -> Z.
  Variable m : meta.
  Variable dd : pystr.
  Variable useDrafts : bool.
  Variable ud uid : option pystr.
  Variable ns : list (pystr * pystr).
  Notation unify := (unify hasher m dd useDrafts ud uid ns).
  Notation ensure_path := (ensure_path ws hasher m dd useDrafts ud uid ns).
  Notation findall := (findall ws hasher m dd useDrafts ud uid ns).
  Notation read_path := (read_path ws ns).
  Notation addnode := (addnode hasher m dd useDrafts ud uid ns).
  Notation add_inserted_node := (add_inserted_node hasher m dd useDrafts ud uid ns).

  Lemma unify_found text draft alt steps : forall root curr parent,
    Forall (fun p => at_place root p <> None) curr ->
    flat_map (from_place root steps) curr <> [] ->
    unify true text draft alt None steps root curr parent
    = Ok (root, flat_map (from_place root steps) curr).
  Proof.
    induction steps as [|st steps IH]; intros root curr parent V; cbn [M_Paths.unify].
    - intros _. now rewrite flat_map_id_places.
    - set (new := if streq (fst st) (lit ".") then curr else flat_map (matching_kids root st) curr).
      assert (Forall (fun p => at_place root p <> None) new) as Vn.
      { subst new. destruct (streq (fst st) (lit ".")); [assumption|apply matching_kids_all]. }
      assert (flat_map (from_place root (st :: steps)) curr = flat_map (from_place root steps) new) as E.
      { subst new. destruct (streq (fst st) (lit ".")) eqn:Ed.
        - apply flat_map_ext_in'. intros p _. unfold from_place. cbn [walks]. now rewrite Ed.
        - rewrite flat_map_flat_map. apply flat_map_ext_in'. intros p _. now apply from_place_step. }
      rewrite E. destruct new as [|p new]; [cbn; congruence|]. now apply IH.
  Qed.

  (** ** C27: if the path is there, nothing changes *)
  Theorem C27_found : forall root base n path steps draft alt before w,
    at_place root base = Some n -> read_path path = Ok steps -> walk n steps w ->
    exists l, ensure_path root base path None draft alt before false None = Ok (root, l) /\
      findall root base path = Ok (root, l) /\ In (below base w) l.
  Proof.
    intros root base n path steps draft alt before w Hb Hp Hw.
    assert (flat_map (from_place root steps) [base] = map (below base) (walks n steps)) as Ef.
    { cbn. rewrite app_nil_r. unfold from_place. now rewrite Hb. }
    exists (map (below base) (walks n steps)). split; [|split].
    - unfold M_Paths.ensure_path, process_path. rewrite Hp. cbn [negb bind].
      rewrite unify_found; [rewrite Ef; reflexivity|repeat constructor; congruence|].
      rewrite Ef. apply walks_spec in Hw. destruct (walks n steps); [destruct Hw|discriminate].
    - unfold M_Paths.findall, M_Paths.ensure_path, process_path. rewrite Hp. cbn [negb bind].
      rewrite unify_find by (repeat constructor; congruence). now rewrite Ef.
    - apply in_map. now apply walks_spec.
  Qed.

  (** with a text: of the elements found, those that have the text *)
  Definition has_text (root : lnode) (t : pystr) (q : place_in_doc) : bool :=
    match at_place root q with Some c => opteq (ltext c) (Some t) | None => false end.
  Lemma with_text_filter t alt root : forall curr,
    with_text dd ud uid t None alt root curr = Ok (root, filter (has_text root t) curr).
  Proof.
    induction curr as [|p curr IH]; [reflexivity|]. cbn [with_text filter]. unfold has_text at 1.
    destruct (at_place root p) as [j|]; [|exact IH].
    destruct (opteq (ltext j) (Some t)); cbn [bind]; rewrite IH; reflexivity.
  Qed.
  Theorem C27_found_text : forall root base n path steps t alt before w c,
    at_place root base = Some n -> read_path path = Ok steps -> walk n steps w ->
    at_place root (below base w) = Some c -> ltext c = Some t ->
    exists l, findall root base path = Ok (root, l) /\
      ensure_path root base path (Some t) None alt before false None
      = Ok (root, filter (has_text root t) l) /\
      In (below base w) (filter (has_text root t) l).
  Proof.
    intros root base n path steps t alt before w c Hb Hp Hw Hc Ht.
    destruct (C27_found root base n path steps None alt before w Hb Hp Hw) as (l & E1 & E2 & Hin).
    exists l. split; [exact E2|].
    assert (In (below base w) (filter (has_text root t) l)) as Hf.
    { apply filter_In. split; [exact Hin|]. unfold has_text. rewrite Hc. rewrite Ht. now destruct (opteq_spec (Some t) (Some t)). }
    split; [|exact Hf].
    assert (flat_map (from_place root steps) [base] = map (below base) (walks n steps)) as Ef.
    { cbn. rewrite app_nil_r. unfold from_place. now rewrite Hb. }
    revert E1. unfold M_Paths.ensure_path, process_path. rewrite Hp. cbn [negb bind].
    rewrite !unify_found; rewrite ?Ef; try (repeat constructor; congruence);
      try (apply walks_spec in Hw; destruct (walks n steps); [destruct Hw|discriminate]).
    cbn [bind]. intro E1. injection E1 as ->.
    rewrite with_text_filter. cbn [bind snd].
    destruct (filter (has_text root t) l); [destruct Hf|reflexivity].
  Qed.

  (** the attributes of a new element *)
  Definition new_attrs (draft : option pystr) (st : pathstep) : list (pystr * pystr) :=
    let a := filter (fun kv : pystr * pystr => match snd kv with [] => false | _ => true end) (snd st) in
    let a := match draft with Some d => dset streq a (lit "draft") d | None => a end in
    if useDrafts then
      if dmem streq a (lit "draft") then a
      else match ud with Some d => dset streq a (lit "draft") d | None => a end
    else a.
  (** its key hash *)
  Definition new_hash (draft : option pystr) (st : pathstep) : Z :=
    fst (calc_hashes hasher m true (fst st) (new_attrs draft st) None []).

  (** the paths for which the theorem below holds: names are in expanded form already, the
      draft is not asked for, and, with drafts in use, an element of the document that has the
      key of a step matches the step (so the tests of the step are all on key attributes) *)
  Definition creatable (st : pathstep) : Prop :=
    reverse_localns ns (fst st) = fst st /\ NoDup (dkeys (snd st)) /\
    ~ In (lit "draft") (dkeys (snd st)).
  Definition keys_decide (root : lnode) (draft : option pystr) (st : pathstep) : Prop :=
    useDrafts = true -> forall q x, at_place root q = Some x ->
      lah x = new_hash draft st -> step_match st x = true.

  Lemma dget_filter_nonempty (d : list (pystr * pystr)) k v : NoDup (dkeys d) -> In (k, v) d ->
    match dget streq (filter (fun kv : pystr * pystr => match snd kv with [] => false | _ => true end) d) k with
    | Some x => x = v | None => v = [] end.
  Proof.
    induction d as [|[k' v'] d IH]; intros ND H; [destruct H|]. destruct H as [E|H].
    - injection E as -> ->. cbn [filter snd]. destruct v as [|c v].
      + cbn in ND. inversion ND; subst.
        assert (~ In k (dkeys (filter (fun kv : pystr * pystr => match snd kv with [] => false | _ => true end) d))) as Nk.
        { intro H. apply in_map_iff in H as ([k2 v2] & <- & H). apply filter_In in H as [H _]. apply H1.
          change (In (fst (k2, v2)) (dkeys d)). unfold dkeys. now apply in_map. }
        apply (dget_None _ streq_spec) in Nk. now rewrite Nk.
      + cbn [dget]. now rewrite streq_refl.
    - cbn in ND. inversion ND as [|? ? Hn ND']; subst. specialize (IH ND' H).
      cbn [filter snd]. assert (k <> k') as Nk.
      { intros ->. apply Hn. change (In (fst (k', v)) (dkeys d)). unfold dkeys. now apply in_map. }
      destruct v' as [|c v']; [assumption|]. cbn [dget]. destruct (streq_spec k k'); [congruence|assumption].
  Qed.

  Lemma new_attrs_match draft st text ah ch : creatable st ->
    step_match st (LNode (fst st) (new_attrs draft st) text ah ch None []) = true.
  Proof.
    intros (_ & ND & Nd). apply step_match_spec. split; [reflexivity|]. intros k v H.
    assert (k <> lit "draft") as Nk.
    { intros ->. apply Nd. change (lit "draft") with (fst (lit "draft", v)). unfold dkeys. now apply in_map. }
    unfold attr_is, lget. cbn [lattrs].
    assert (dget streq (new_attrs draft st) k
            = dget streq (filter (fun kv : pystr * pystr => match snd kv with [] => false | _ => true end) (snd st)) k) as E.
    { unfold new_attrs. destruct draft as [d|].
      - destruct useDrafts; [|apply (dget_dset_other _ streq_spec); assumption].
        assert (dmem streq (dset streq (filter (fun kv : pystr * pystr => match snd kv with [] => false | _ => true end) (snd st)) (lit "draft") d) (lit "draft") = true) as ->.
        { unfold dmem. now rewrite (dget_dset_same _ streq_spec). }
        apply (dget_dset_other _ streq_spec); assumption.
      - destruct useDrafts; [|reflexivity]. destruct (dmem streq _ (lit "draft")); [reflexivity|].
        destruct ud; [|reflexivity]. apply (dget_dset_other _ streq_spec); assumption. }
    rewrite E. clear E. pose proof (dget_filter_nonempty (snd st) k v ND H) as D.
    destruct (dget streq _ k); [left; congruence|right; auto].
  Qed.
  (** a new element: no children, no alternates, the draft asked for *)
  Definition fresh (draft : option pystr) (e : lnode) : Prop :=
    leaf_node e /\ forall d, draft = Some d -> lget e (lit "draft") = Some d.
  Lemma new_attrs_draft d st : dget streq (new_attrs (Some d) st) (lit "draft") = Some d.
  Proof.
    unfold new_attrs. destruct useDrafts; [|apply (dget_dset_same _ streq_spec)].
    unfold dmem. rewrite (dget_dset_same _ streq_spec). apply (dget_dset_same _ streq_spec).
  Qed.

  Lemma fold_attribs draft (a : list (pystr * pystr)) :
    fold_left (fun d (kv : pystr * pystr) => dset streq d (fst kv) (snd kv))
      (match draft with Some d => [(lit "draft", d)] | None => [] end) a
    = match draft with Some d => dset streq a (lit "draft") d | None => a end.
  Proof. destruct draft; reflexivity. Qed.

  Lemma index_where_none {X} (p : X -> bool) l : (forall x, In x l -> p x = false) -> index_where p l = None.
  Proof.
    induction l as [|x l IH]; intro H; cbn; [reflexivity|]. rewrite (H x) by now left.
    rewrite IH; [reflexivity|]. intros y Hy. apply H. now right.
  Qed.

  (** adding where no child matches: the new element is appended *)
  Lemma addnode_append pn draft st alt :
    creatable st -> (useDrafts = true -> forall c, In c (lkids pn) -> lah c <> new_hash draft st) ->
    exists ah ch, addnode pn (fst st) (snd st) (match draft with Some d => [(lit "draft", d)] | None => [] end) alt
      = Ok (set_kids pn (lkids pn ++ [LNode (fst st) (new_attrs draft st) None ah ch None []]),
            (List.length (lkids pn), Primary)).
  Proof.
    intros (Er & _ & _) Nm. unfold M_Drafts.addnode. rewrite fold_attribs, Er.
    unfold new_attrs, new_hash in *. destruct useDrafts eqn:Eu; [|eauto].
    set (a := if dmem streq _ _ then _ else _) in *.
    destruct (calc_hashes hasher m true (fst st) a None []) as [ah ch] eqn:Eh.
    rewrite index_where_none; [eauto|].
    intros x Hx. destruct (Z.eqb_spec (lah x) ah) as [E|_]; [|reflexivity].
    exfalso. apply (Nm eq_refl x Hx). rewrite E. unfold new_attrs. try rewrite Eu. fold a. now rewrite Eh.
  Qed.

  Lemma add_inserted_spec root parent pn draft text st alt : at_place root parent = Some pn ->
    creatable st -> (useDrafts = true -> forall c, In c (lkids pn) -> lah c <> new_hash draft st) ->
    exists e, leaf_node e /\ step_match st e = true /\ ltext e = text /\
      fresh draft e /\
      add_inserted_node root None draft text parent st alt
      = Ok (put_at root parent (set_kids pn (lkids pn ++ [e])), parent ++ [K (List.length (lkids pn))]).
  Proof.
    intros Hp Hc Nm. destruct (addnode_append pn draft st alt Hc Nm) as (ah & ch & E).
    exists (LNode (fst st) (new_attrs draft st) text ah ch None []).
    split; [split; reflexivity|]. split; [eapply new_attrs_match; exact Hc|]. split; [reflexivity|].
    split; [split; [split; reflexivity|]; intros d ->; apply new_attrs_draft|].
    unfold M_Paths.add_inserted_node. rewrite Hp, E. cbn [bind].
    destruct text as [t|]; [|reflexivity].
    set (e0 := LNode (fst st) (new_attrs draft st) None ah ch None []).
    destruct (set_kids_fields pn (lkids pn ++ [e0])) as (_ & _ & _ & _ & _ & _ & F7).
    cbn [at_place put_at]. rewrite F7.
    rewrite nth_error_app2, Nat.sub_diag by lia. cbn [nth_error].
    assert (replace_nth (List.length (lkids pn)) (set_text e0 (Some t)) (lkids pn ++ [e0])
            = lkids pn ++ [set_text e0 (Some t)]) as ->.
    { generalize (set_text e0 (Some t)). clearbody e0. intro e9. clear.
      induction (lkids pn) as [|x l IH]; cbn; [reflexivity|]. now rewrite IH. }
    replace (set_kids (set_kids pn (lkids pn ++ [e0])) (lkids pn ++ [set_text e0 (Some t)]))
      with (set_kids pn (lkids pn ++ [set_text e0 (Some t)])) by (destruct pn; reflexivity).
    reflexivity.
  Qed.

  Lemma set_kids_same pn l : same_element pn (set_kids pn l).
  Proof. destruct (set_kids_fields pn l) as (F1 & F2 & F3 & _). repeat split; assumption. Qed.

  Lemma add_only root parent pn e text : at_place root parent = Some pn -> leaf_node e -> ltext e = text ->
    let root' := put_at root parent (set_kids pn (lkids pn ++ [e])) in
    let p := parent ++ [K (List.length (lkids pn))] in
    only_added root root' p text /\ at_place root' p = Some e /\
    (forall q y, at_place root' q = Some y -> at_place root q = None -> q = p /\ y = e).
  Proof.
    intros Hp Le Te root' p.
    assert (forall q y, at_place root' q = Some y -> at_place root q = None -> q = p /\ y = e) as N.
    { intros q y H1 H2. destruct (put_at_new parent root pn _ q y Hp H1 H2) as (r & -> & H3 & H4).
      destruct (append_new pn e r y Le H3 H4) as [-> ->]. auto. }
    split; [|split; [|exact N]].
    - constructor.
      + apply (put_at_kept parent root pn); [assumption|apply set_kids_same|]. intros q y. apply append_kept.
      + intros q y H1 H2. destruct (N q y H1 H2) as [-> ->]. split; [|assumption]. exists []. now rewrite app_nil_r.
    - unfold p. rewrite at_place_app. unfold root'. rewrite (at_put_at root parent _ pn Hp). cbn [at_place].
      destruct (set_kids_fields pn (lkids pn ++ [e])) as (_ & _ & _ & _ & _ & _ & ->).
      rewrite nth_error_app2, Nat.sub_diag by lia. reflexivity.
  Qed.

  Lemma step_match_same st x y : same_element x y -> step_match st y = step_match st x.
  Proof. intros (H1 & H2 & _). unfold step_match, lget. now rewrite H1, H2. Qed.

  Lemma only_added_trans r1 r2 r3 p1 p2 text : only_added r1 r2 p1 text -> only_added r2 r3 p2 text ->
    (exists r, p2 = p1 ++ r) -> only_added r1 r3 p2 text.
  Proof.
    intros [K1 N1] [K2 N2] [r ->]. constructor.
    - intros q x H. destruct (K1 q x H) as (y & Hy & Sy). destruct (K2 q y Hy) as (z & Hz & Sz).
      exists z. split; [assumption|]. eapply same_trans; eassumption.
    - intros q y H1 H2. destruct (at_place r2 q) as [x|] eqn:E.
      + destruct (N1 q x E H2) as [[r' ->] Tx]. destruct (K2 q x E) as (z & Hz & (_ & _ & Sz)).
        split; [|congruence]. exists (r' ++ r). now rewrite app_assoc.
      + now apply N2.
  Qed.

  (** creating a chain below a childless element *)
  Lemma chain_spec text draft alt steps : Forall creatable steps -> forall root p e,
    at_place root p = Some e -> fresh draft e ->
    exists root' e' w, unify true text draft alt None steps root [p] p = Ok (root', [below p w]) /\
      only_added root root' (below p w) text /\
      at_place root' p = Some e' /\ walk e' steps w /\
      exists e2, at_place root' (below p w) = Some e2 /\ fresh draft e2.
  Proof.
    induction 1 as [|st steps Hc F IH]; intros root p e Hp [Le Fe]; cbn [M_Paths.unify].
    - exists root, e, []. unfold below. cbn. rewrite app_nil_r. split; [reflexivity|].
      split; [|split; [assumption|split; [constructor|exists e; split; [assumption|split; assumption]]]]. constructor.
      + intros q x H. exists x. split; [assumption|apply same_refl].
      + congruence.
    - destruct (streq_spec (fst st) (lit ".")) as [Ed|Nd].
      + destruct (IH root p e Hp (conj Le Fe)) as (root' & e' & w & E & O & H1 & H2 & H3).
        exists root', e', w. rewrite E. split; [reflexivity|]. split; [assumption|]. split; [assumption|].
        split; [|assumption].
        destruct st as [t a]. cbn in Ed. subst t. now constructor.
      + cbn [flat_map]. rewrite app_nil_r.
        assert (matching_kids root st p = []) as ->.
        { unfold matching_kids. rewrite Hp. destruct Le as [-> _]. reflexivity. }
        destruct (add_inserted_spec root p e draft text st alt Hp Hc) as (e1 & Le1 & M1 & T1 & F1 & E1).
        { destruct Le as [-> _]. intros _ c []. }
        rewrite E1. cbn [bind fst snd].
        destruct (add_only root p e e1 text Hp Le1 T1) as (O1 & P1 & _).
        set (root1 := put_at root p (set_kids e (lkids e ++ [e1]))) in *.
        set (p1 := p ++ [K (List.length (lkids e))]) in *.
        destruct (IH root1 p1 e1 P1 F1) as (root' & e1' & w & E2 & O2 & H1 & H2 & H3).
        assert (exists e', at_place root' p = Some e') as [e' He'].
        { destruct (oa_kept _ _ _ _ O1 p e Hp) as (y & Hy & _).
          destruct (oa_kept _ _ _ _ O2 p y Hy) as (z & Hz & _). eauto. }
        exists root', e', (List.length (lkids e) :: w). rewrite E2. rewrite <- below_app.
        fold p1. split; [reflexivity|]. split; [|split; [assumption|split; [|assumption]]].
        * eapply only_added_trans; [exact O1|exact O2|]. exists (map K w). reflexivity.
        * destruct st as [t a]. unfold p1 in H1. rewrite at_place_app, He' in H1. cbn [at_place] in H1.
          destruct (nth_error (lkids e') (List.length (lkids e))) as [c|] eqn:Ec; [|discriminate].
          injection H1 as ->.
          destruct (oa_kept _ _ _ _ O2 p1 e1 P1) as (z & Hz & Sz).
          unfold p1 in Hz. rewrite at_place_app, He' in Hz. cbn [at_place] in Hz. rewrite Ec in Hz.
          injection Hz as <-. rewrite <- (step_match_same _ _ _ Sz) in M1.
          apply step_match_spec in M1 as [M1 M2]. econstructor; eauto.
  Qed.

  Lemma unify_create text draft alt steps : Forall creatable steps -> forall root curr parent,
    Forall (fun p => at_place root p <> None) curr ->
    (forall st, In st steps -> keys_decide root draft st) ->
    (exists c, curr = parent :: c) ->
    flat_map (from_place root steps) curr = [] ->
    exists root' q n' w, unify true text draft alt None steps root curr parent = Ok (root', [below q w]) /\
      only_added root root' (below q w) text /\
      In q curr /\ at_place root' q = Some n' /\ walk n' steps w /\
      exists e2, at_place root' (below q w) = Some e2 /\ fresh draft e2.
  Proof.
    induction 1 as [|st steps Hc F IH]; intros root curr parent V Kd [cs Ec] E0; cbn [M_Paths.unify].
    - rewrite flat_map_id_places in E0 by assumption. congruence.
    - set (new := if streq (fst st) (lit ".") then curr else flat_map (matching_kids root st) curr).
      assert (Forall (fun p => at_place root p <> None) new) as Vn.
      { subst new. destruct (streq (fst st) (lit ".")); [assumption|apply matching_kids_all]. }
      assert (flat_map (from_place root (st :: steps)) curr = flat_map (from_place root steps) new) as E.
      { subst new. destruct (streq (fst st) (lit ".")) eqn:Ed.
        - apply flat_map_ext_in'. intros p _. unfold from_place. cbn [walks]. now rewrite Ed.
        - rewrite flat_map_flat_map. apply flat_map_ext_in'. intros p _. now apply from_place_step. }
      rewrite E in E0. clear E. destruct new as [|p0 new'] eqn:En.
      + (* nothing matches: create *)
        assert (streq (fst st) (lit ".") = false) as Nd.
        { destruct (streq (fst st) (lit ".")) eqn:Ed; [|reflexivity]. subst new. congruence. }
        assert (exists pn, at_place root parent = Some pn) as [pn Hpn].
        { rewrite Ec in V. inversion V; subst. destruct (at_place root parent); [eauto|congruence]. }
        destruct (add_inserted_spec root parent pn draft text st alt Hpn Hc) as (e1 & Le1 & M1 & T1 & F1 & E1).
        { intros Hu c Hin Hh. apply In_nth_error in Hin as [i Hi].
          assert (at_place root (parent ++ [K i]) = Some c) as Hat.
          { rewrite at_place_app, Hpn. cbn. now rewrite Hi. }
          pose proof (Kd st (or_introl eq_refl) Hu _ _ Hat Hh) as Hm.
          assert (In (parent ++ [K i]) new) as Hnew; [|rewrite En in Hnew; destruct Hnew].
          subst new. rewrite Nd. rewrite Ec. apply in_flat_map. exists parent. split; [now left|].
          unfold matching_kids. rewrite Hpn. apply in_map_iff. exists (i, c). split; [reflexivity|].
          apply filter_In. split; [now apply in_items|assumption]. }
        rewrite E1. cbn [bind fst snd].
        destruct (add_only root parent pn e1 text Hpn Le1 T1) as (O1 & P1 & _).
        set (root1 := put_at root parent (set_kids pn (lkids pn ++ [e1]))) in *.
        set (p1 := parent ++ [K (List.length (lkids pn))]) in *.
        destruct (chain_spec text draft alt steps F root1 p1 e1 P1 F1) as (root' & e1' & w & E2 & O2 & H1 & H2 & H3).
        assert (exists e', at_place root' parent = Some e') as [e' He'].
        { destruct (oa_kept _ _ _ _ O1 parent pn Hpn) as (y & Hy & _).
          destruct (oa_kept _ _ _ _ O2 parent y Hy) as (z & Hz & _). eauto. }
        exists root', parent, e', (List.length (lkids pn) :: w). rewrite E2, <- below_app. fold p1.
        split; [reflexivity|]. split.
        * eapply only_added_trans; [exact O1|exact O2|]. exists (map K w). reflexivity.
        * split; [rewrite Ec; now left|]. split; [assumption|]. split; [|assumption].
          destruct st as [t a]. unfold p1 in H1. rewrite at_place_app, He' in H1. cbn [at_place] in H1.
          destruct (nth_error (lkids e') (List.length (lkids pn))) as [c|] eqn:Ecc; [|discriminate].
          injection H1 as ->.
          destruct (oa_kept _ _ _ _ O2 p1 e1 P1) as (z & Hz & Sz).
          unfold p1 in Hz. rewrite at_place_app, He' in Hz. cbn [at_place] in Hz. rewrite Ecc in Hz.
          injection Hz as <-. rewrite <- (step_match_same _ _ _ Sz) in M1.
          apply step_match_spec in M1 as [M1 M2]. econstructor; eauto.
          cbn in Nd. now apply streq_false.
      + (* something matches: go on *)
        destruct (IH root (p0 :: new') p0 Vn) as (root' & q & n' & w & E2 & O2 & Hq & H1 & H2 & H3).
        { intros st' H. apply Kd. now right. }
        { eauto. }
        { exact E0. }
        rewrite E2. destruct (streq (fst st) (lit ".")) eqn:Ed.
        * exists root', q, n', w. split; [reflexivity|]. split; [assumption|].
          split; [rewrite <- En in Hq; subst new; exact Hq|]. split; [assumption|]. split; [|assumption].
          destruct st as [t a]. cbn in Ed. apply streq_true in Ed. subst t. now constructor.
        * rewrite <- En in Hq. subst new. apply in_flat_map in Hq as (q0 & Hq0 & Hq).
          apply matching_kids_valid in Hq as (n & i & c & A1 & A2 & A3 & -> & A5).
          destruct (oa_kept _ _ _ _ O2 q0 n A1) as (n0 & Hn0 & _).
          exists root', q0, n0, (i :: w). rewrite <- below_app. split; [reflexivity|].
          split; [assumption|]. split; [assumption|]. split; [assumption|]. split; [|exact H3].
          rewrite at_place_app, Hn0 in H1. cbn [at_place] in H1.
          destruct (nth_error (lkids n0) i) as [c'|] eqn:Ecc; [|discriminate]. injection H1 as ->.
          destruct (oa_kept _ _ _ _ O2 _ _ A5) as (z & Hz & Sz).
          rewrite at_place_app, Hn0 in Hz. cbn [at_place] in Hz. rewrite Ecc in Hz. injection Hz as <-.
          rewrite <- (step_match_same _ _ _ Sz) in A3. destruct st as [t a].
          apply step_match_spec in A3 as [B1 B2]. econstructor; eauto. cbn in Ed. now apply streq_false.
  Qed.

  Lemma walk_length steps : forall n n' w w', walk n steps w -> walk n' steps w' -> List.length w = List.length w'.
  Proof.
    induction steps as [|st steps IH]; intros n n' w w' H1 H2; inversion H1; inversion H2; subst; try congruence.
    - eapply IH; eassumption.
    - cbn. f_equal. eapply IH; eassumption.
  Qed.
  Lemma walk_at n steps w : walk n steps w -> exists c, at_place n (map K w) = Some c.
  Proof.
    induction 1 as [| |n t a steps i c w _ Hi _ _ _ [d Hd]]; cbn; eauto. rewrite Hi. eauto.
  Qed.
  Lemma walk_back root root' p text base : only_added root root' p text -> forall steps n n' q w,
    base = q -> at_place root q = Some n -> at_place root' q = Some n' -> walk n' steps w ->
    at_place root (below q w) <> None -> walk n steps w.
  Proof.
    intros O steps n n' q w _. clear base. revert n n' q w.
    induction steps as [|st steps IH]; intros n n' q w Hn Hn' W Hat; inversion W; subst.
    - constructor.
    - constructor. eapply IH; eassumption.
    - rewrite <- below_app in Hat. unfold below in Hat. rewrite at_place_app in Hat.
      destruct (at_place root (q ++ [K i])) as [c0|] eqn:Ec0; [|congruence].
      destruct (oa_kept _ _ _ _ O _ _ Ec0) as (c1 & Hc1 & Sc).
      pose proof Hc1 as Hc1'. rewrite at_place_app, Hn' in Hc1'. cbn in Hc1'.
      rewrite H2 in Hc1'. injection Hc1' as <-.
      pose proof Ec0 as Ec0'. rewrite at_place_app, Hn in Ec0'. cbn in Ec0'.
      destruct (nth_error (lkids n) i) as [c2|] eqn:Ei; [|discriminate]. injection Ec0' as ->.
      assert (step_match (ltag c, attrs) c0 = true) as M.
      { rewrite <- (step_match_same _ _ _ Sc). apply step_match_spec. auto. }
      apply step_match_spec in M as [M1 M2]. econstructor; eauto.
      eapply IH; [exact Ec0|exact Hc1|eassumption|].
      unfold below. rewrite at_place_app, Ec0. exact Hat.
  Qed.

  (** ** C27: if it is not there, it is created, and only the elements on the way *)
  Theorem C27_created : forall root base n path steps text draft alt before,
    at_place root base = Some n -> read_path path = Ok steps ->
    (forall w, ~ walk n steps w) ->
    Forall creatable steps ->
    (forall st, In st steps -> keys_decide root (match draft with None => ud | d => d end) st) ->
    exists root' p,
      ensure_path root base path text draft alt before false None = Ok (root', [p]) /\
      findall root' base path = Ok (root', [p]) /\
      only_added root root' p text.
  Proof.
    intros root base n path steps text draft alt before Hb Hp Nw Hc Hk.
    set (d := match draft with None => ud | d => d end) in *.
    destruct (unify_create text d alt steps Hc root [base] base) as (root' & q & n' & w & E & O & Hq & Hn' & W & e2 & Ee2 & Fe2).
    { repeat constructor. congruence. }
    { exact Hk. }
    { eauto. }
    { cbn. rewrite app_nil_r. unfold from_place. rewrite Hb.
      destruct (walks n steps) as [|w l] eqn:Ew; [reflexivity|]. exfalso. apply (Nw w).
      apply walks_spec. rewrite Ew. now left. }
    destruct Hq as [<-|[]]. exists root', (below base w).
    destruct (oa_kept _ _ _ _ O base n Hb) as (n1 & Hn1 & _). assert (n1 = n') by congruence. subst n1.
    assert (findall root' base path = Ok (root', [below base w])) as Ef.
    { destruct (C26_found ws hasher m dd useDrafts ud uid ns root' base n' path steps None None None None Hn' Hp)
        as (l & El & Hl & Sl).
      unfold M_Paths.findall. rewrite El.
      assert (forall w', In w' l -> w' = w) as U.
      { intros w' Hw'. apply Hl in Hw'.
        destruct (at_place root (below base w')) as [x|] eqn:Ex.
        - exfalso. apply (Nw w'). eapply (walk_back root root' _ _ base O); eauto. congruence.
        - destruct (walk_at _ _ _ Hw') as [c Hcw].
          assert (at_place root' (below base w') = Some c) as Hc'.
          { unfold below. now rewrite at_place_app, Hn'. }
          destruct (oa_new _ _ _ _ O _ _ Hc' Ex) as [[r Er] _].
          unfold below in Er. rewrite <- app_assoc in Er. apply app_inv_head in Er.
          pose proof (walk_length _ _ _ _ _ W Hw') as L.
          assert (r = []) as ->.
          { apply (f_equal (@List.length hop)) in Er. rewrite app_length, !map_length in Er.
            destruct r; [reflexivity|cbn in Er; lia]. }
          rewrite app_nil_r in Er. clear -Er. revert w Er.
          induction w' as [|i w' IHw]; intros [|j w] Er; try discriminate; [reflexivity|].
          cbn in Er. injection Er as -> Er. now rewrite (IHw w Er). }
      destruct l as [|w1 l].
      - exfalso. apply (Hl w) in W. destruct W.
      - rewrite (U w1 (or_introl eq_refl)). destruct l as [|w2 l]; [reflexivity|]. exfalso.
        rewrite (U w1 (or_introl eq_refl)), (U w2 (or_intror (or_introl eq_refl))) in Sl.
        inversion Sl as [|? ? _ Fl]; subst. inversion Fl as [|? ? B _]; subst. clear -B.
        induction w as [|i w IHw]; inversion B; subst; [lia|auto]. }
    split; [|split; [exact Ef|exact O]].
    unfold M_Paths.ensure_path, process_path. rewrite Hp. cbn [negb bind]. fold d.
    rewrite E. cbn [bind fst snd]. destruct text as [t|]; [|reflexivity].
    (* the text of the new element is the one wanted *)
    assert (ltext e2 = Some t) as Te.
    { destruct (at_place root (below base w)) as [x|] eqn:Ex.
      - exfalso. apply (Nw w). eapply (walk_back root root' _ _ base O); eauto. congruence.
      - apply (oa_new _ _ _ _ O _ _ Ee2 Ex). }
    destruct Fe2 as [[_ La] Fd].
    cbn [with_text]. rewrite Ee2, Te. cbn [opteq]. rewrite streq_refl, La.
    destruct draft as [d0|].
    - subst d. rewrite (Fd d0 eq_refl). cbn [get_draft bind].
      assert ((rating (Some d0) maxrating <? rating (Some d0) 5) = false) as ->.
      { apply Nat.ltb_ge. unfold rating. destruct (dget streq draftratings d0); [lia|]. vm_compute. lia. }
      reflexivity.
    - reflexivity.
  Qed.
End Ensure.

(** what could be found before is still found *)
Theorem C27_still_found : forall root root' p text base n steps w,
  only_added root root' p text -> at_place root base = Some n -> walk n steps w ->
  exists n', at_place root' base = Some n' /\ walk n' steps w.
Proof.
  intros root root' p text base n steps w O. revert base n w.
  induction steps as [|st steps IH]; intros base n w Hb W.
  - destruct (oa_kept _ _ _ _ O _ _ Hb) as (n' & Hn' & _). exists n'. inversion W; subst. split; [assumption|constructor].
  - inversion W; subst.
    + destruct (IH base n w Hb) as (n' & Hn' & W'); [assumption|]. exists n'. split; [assumption|now constructor].
    + destruct (oa_kept _ _ _ _ O _ _ Hb) as (n' & Hn' & _). exists n'. split; [assumption|].
      assert (at_place root (base ++ [K i]) = Some c) as Hc by (rewrite at_place_app, Hb; cbn; now rewrite H2).
      destruct (IH _ _ _ Hc H7) as (c' & Hc' & W').
      destruct (oa_kept _ _ _ _ O _ _ Hc) as (c2 & Hc2 & Sc). assert (c2 = c') by congruence. subst c2.
      rewrite at_place_app, Hn' in Hc'. cbn in Hc'.
      destruct (nth_error (lkids n') i) as [c2|] eqn:E; [|discriminate]. injection Hc' as ->.
      assert (step_match (ltag c, attrs) c' = true) as M.
      { rewrite (step_match_same _ _ _ Sc). apply step_match_spec. auto. }
      apply step_match_spec in M as [M1 M2]. econstructor; eauto.
Qed.

(** ** Where it fails *)

(** Asking for a text with a draft raises AttributeError whenever the first element found has
    an alternate: the names of the alternates are taken for elements. *)
Theorem C27_text_draft_raises : forall ws hasher m dd useDrafts ud uid ns root base n path steps
    t d alt before w c a alts,
  In dd alldrafts ->
  at_place root base = Some n -> read_path ws ns path = Ok steps ->
  walk n steps w -> (forall w', walk n steps w' -> w' = w \/ before_in_doc w w') ->
  at_place root (below base w) = Some c -> lalts c = Some (a :: alts) ->
  ensure_path ws hasher m dd useDrafts ud uid ns root base path (Some t) (Some d) alt before false None
  = Raise AttributeError.
Proof.
  intros ws hasher m dd useDrafts ud uid ns root base n path steps t d alt before w c a alts D Hb Hp Hw Hf Hc Ha.
  unfold ensure_path, process_path. rewrite Hp. cbn [negb bind].
  assert (flat_map (from_place root steps) [base] = map (below base) (walks n steps)) as Ef.
  { cbn. rewrite app_nil_r. unfold from_place. now rewrite Hb. }
  rewrite unify_found; rewrite ?Ef; cbn [bind].
  - assert (exists l, walks n steps = w :: l) as [l ->].
    { pose proof (walks_sorted steps n) as S. pose proof Hw as Hin. apply walks_spec in Hin.
      destruct (walks n steps) as [|w1 l] eqn:E; [destruct Hin|].
      assert (walk n steps w1) as W1 by (apply walks_spec; rewrite E; now left).
      assert (forall u v, before_in_doc u v -> before_in_doc v u -> False) as Asym.
      { clear. induction 1; intro H'; inversion H'; subst; auto; lia. }
      destruct (Hf w1 W1) as [->|B]; [eauto|]. destruct Hin as [->|Hin]; [eauto|].
      inversion S as [|? ? _ F]; subst. rewrite Forall_forall in F. exfalso. eauto. }
    cbn [map with_text]. rewrite Hc, Ha.
    destruct (opteq (ltext c) (Some t)); cbn [bind]; [|reflexivity].
    unfold get_draft. destruct (lget c (lit "draft")) as [x|]; cbn [bind].
    + destruct (_ <? _); reflexivity.
    + destruct (dget streq draftratings dd) as [k|] eqn:Ek; cbn [bind].
      * destruct (_ <? _); reflexivity.
      * apply enum_from_none in Ek. contradiction.
  - repeat constructor. congruence.
  - apply walks_spec in Hw. destruct (walks n steps); [destruct Hw|discriminate].
Qed.

(** A toy hash for the examples. *)
Definition toy_hash (s : pystr) : Z := fold_left (fun a c => (a * 257 + Z.of_N c)%Z) s 0%Z.
Definition ex_keys : meta :=
  {| m_keys := [lit "type"]; m_nonkey := []; m_key := []; m_attord := []; m_maxats := 0; m_elord := [];
     m_maxels := 0; m_attvals := []; m_serial := []; m_blocks := [] |}.
Definition blank (c : N) : bool := (N.eqb c 32 || N.eqb c 10)%bool.
Definition ex_load := load blank (fun s => s) toy_hash ex_keys (lit "unconfirmed") true.
Definition ex_ensure := ensure_path blank toy_hash ex_keys (lit "unconfirmed") true None None ex_ns.
Definition ex_findall := findall blank toy_hash ex_keys (lit "unconfirmed") true None None ex_ns.

(** The hypotheses of C27_created are met: creating a month in a document that has another. *)
Definition ex_doc27 : lnode :=
  ex_load (Node (lit "ldml") [] None
             [Node (lit "months") [] None [Node (lit "month") [(lit "type", lit "1")] (Some (lit "Jan")) []]]).
Definition ex_path27 : list pathstep := [(lit "months", []); (lit "month", [(lit "type", lit "2")]); (lit "x", [])].
Lemma at_root n x : at_place n [] = Some x -> x = n.
Proof. cbn. congruence. Qed.
Example C27_example :
  Forall (creatable ex_ns) ex_path27 /\
  (forall st, In st ex_path27 -> keys_decide toy_hash ex_keys true None ex_doc27 None st) /\
  (forall w, ~ walk ex_doc27 ex_path27 w) /\
  exists root', ex_ensure ex_doc27 [] (show_path ex_path27) (Some (lit "Feb")) None None None false None
                = Ok (root', [[K 0; K 1; K 0]]).
Proof.
  split; [|split; [|split]].
  - apply Forall_forall. intros st Hst.
    assert (NoDup (dkeys (snd st)) /\ ~ In (lit "draft") (dkeys (snd st))) as [N1 N2].
    { cbn [ex_path27 In] in Hst. destruct Hst as [<-|[<-|[<-|[]]]]; cbn [snd dkeys map fst].
      - split; [constructor|intros []].
      - split; [constructor; [intros []|constructor]|].
        intros [H|[]]. apply streq_true in H. vm_compute in H. discriminate.
      - split; [constructor|intros []]. }
    split; [|split; assumption].
    cbn [ex_path27 In] in Hst. destruct Hst as [<-|[<-|[<-|[]]]]; vm_compute; reflexivity.
  - intros st Hst _ q x Hq.
    assert (x = ex_doc27 \/ (exists y, nth_error (lkids ex_doc27) 0 = Some y /\ (x = y \/ exists z, nth_error (lkids y) 0 = Some z /\ x = z))) as Hx.
    { destruct q as [|[[|[|i]]|k] q]; cbn in Hq; try discriminate; [injection Hq as <-; auto|].
      right. eexists. split; [reflexivity|].
      destruct q as [|[[|[|i]]|k] q]; cbn in Hq; try discriminate; [injection Hq as <-; auto|].
      right. eexists. split; [reflexivity|].
      destruct q as [|[[|i]|k] q]; cbn in Hq; try discriminate. injection Hq as <-. reflexivity. }
    cbn in Hst. destruct Hx as [->|(y & Hy & [->|(z & Hz & ->)])].
    + destruct Hst as [<-|[<-|[<-|[]]]]; vm_compute; discriminate || reflexivity.
    + vm_compute in Hy. injection Hy as <-. destruct Hst as [<-|[<-|[<-|[]]]]; vm_compute; discriminate || reflexivity.
    + vm_compute in Hy. injection Hy as <-. vm_compute in Hz. injection Hz as <-.
      destruct Hst as [<-|[<-|[<-|[]]]]; vm_compute; discriminate || reflexivity.
  - intros w W. apply walks_spec in W. vm_compute in W. exact W.
  - eexists. vm_compute. reflexivity.
Qed.

(** The path tests an attribute that is not a key: the new element has the key of its sibling,
    becomes an alternate of it, and the path still finds nothing. *)
Definition ex_sibling : lnode :=
  ex_load (Node (lit "ldml") [] None [Node (lit "a") [(lit "n", lit "2")] (Some (lit "x")) []]).
Theorem C27_nonkey_refuted :
  exists root' p, ex_ensure ex_sibling [] (lit "a[@n=""1""]") None None None None false None = Ok (root', [p]) /\
    p = [K 0; A (lit "proposed")] /\
    ex_findall root' [] (lit "a[@n=""1""]") = Ok (root', []).
Proof. eexists _, _. repeat split; vm_compute; reflexivity. Qed.

(** Asking for a text that is not there: the text of a better alternate is overwritten. *)
Definition ex_better : lnode :=
  ex_load (Node (lit "ldml") [] None
    [ Node (lit "a") [(lit "draft", lit "approved")] (Some (lit "x")) [];
      Node (lit "a") [(lit "draft", lit "contributed"); (lit "alt", lit "proposed")] (Some (lit "good")) [] ]).
Theorem C27_overwrites_refuted :
  (exists x, at_place ex_better [K 0; A (lit "proposed")] = Some x /\ ltext x = Some (lit "good")) /\
  exists root' p y, ex_ensure ex_better [] (lit "a") (Some (lit "bad")) None None None false None = Ok (root', [p]) /\
    at_place root' [K 0; A (lit "proposed")] = Some y /\ ltext y = Some (lit "bad") /\
    lget y (lit "draft") = Some (lit "contributed").
Proof.
  split; [eexists; split; vm_compute; reflexivity|].
  eexists _, _, _. repeat split; vm_compute; reflexivity.
Qed.
