(** C63: writing a document with drafts. *)
From Coq Require Import String.
From Verif Require Import Py PyFacts M_LdmlBase M_TreeBuilder M_Serialize M_Normalise S_Xml M_Drafts M_WriteDrafts
  T_LdmlBase T_LdmlHash T_Collation2 T_TreeBuilder T_Normalise P_Serialize T_Serialize T_Drafts T_Promote.
Local Open Scope list_scope.
Local Open Scope nat_scope.

(** * Specification *)

(** Dictionaries have every key once. *)
Inductive wf : wnode -> Prop :=
| Wf t a x b l k :
    NoDup (map fst a) ->
    (forall al, l = Some al -> NoDup (map fst al) /\ Forall (fun kv => wf (snd kv)) al) ->
    Forall wf k -> wf (WNode t a x b l k).
(** No child of an element is marked as temporary, at any depth; also not among the children of
    the alternates. *)
Inductive clean_doc : wnode -> Prop :=
| Clean t a x b l k :
    (forall al, l = Some al -> Forall (fun kv => clean_doc (snd kv)) al) ->
    Forall (fun c => wtemp c = false /\ clean_doc c) k ->
    clean_doc (WNode t a x b l k).

Section Spec.
  Variable dd silid : pystr.

  (** The draft of an element is not written if the element has children or if it is the
      default draft of the document. The element sil:identity keeps its draft. *)
  Definition draft_dropped (tag : pystr) (attrs : list (pystr * pystr)) (kids : list wnode) : Prop :=
    exists d, In (lit "draft", d) attrs /\ d <> [] /\ (kids <> [] \/ d = dd) /\ tag <> silid.

  (** [attrs'] are the attributes written. [seta]: the alt of an alternate. *)
  Definition attrs_written (seta : option pystr) tag attrs kids (attrs' : list (pystr * pystr)) : Prop :=
    NoDup (map fst attrs') /\
    (forall k v, k <> lit "draft" -> k <> lit "alt" -> (In (k, v) attrs' <-> In (k, v) attrs)) /\
    (forall v, In (lit "alt", v) attrs' <->
       match seta with Some a => v = a | None => In (lit "alt", v) attrs end) /\
    (forall v, In (lit "draft", v) attrs' <->
       In (lit "draft", v) attrs /\ ~ draft_dropped tag attrs kids).

  (** [o] is written for the element. Each child is followed by its alternates in the order of
      their names. The alt of an alternate is its name, after the alt of the parent if the
      parent has one. *)
  Inductive writes : option pystr -> wnode -> node -> Prop :=
  | Writes seta tag attrs text temp alts kids attrs' groups :
      attrs_written seta tag attrs kids attrs' ->
      Forall2 (fun c g =>
        exists o os al, g = o :: os /\ writes None c o
          /\ Permutation al (match walts c with Some al => al | None => [] end)
          /\ StronglySorted (fun x y => strleb (fst x) (fst y) = true) al
          /\ Forall2 (fun kv o =>
               exists a, writes (Some a) (snd kv) o
                 /\ ((exists p, In (lit "alt", p) attrs' /\ p <> [] /\ a = p ++ lit "-" ++ fst kv)
                     \/ ((forall p, In (lit "alt", p) attrs' -> p = []) /\ a = fst kv))) al os)
        kids groups ->
      writes seta (WNode tag attrs text temp alts kids) (Node tag attrs' text (concat groups)).
End Spec.

(** [same_doc isalt a b]: the same element, children and alternates. Only the attribute draft, and
    alt on an alternate, may differ. *)
Inductive same_doc : bool -> wnode -> wnode -> Prop :=
| Same isalt t a a' x b b' l l' k k' :
    (forall key v, key <> lit "draft" -> (key <> lit "alt" \/ isalt = false) ->
       (In (key, v) a' <-> In (key, v) a)) ->
    (forall v, In (lit "draft", v) a' -> In (lit "draft", v) a) ->
    (isalt = false -> b' = b) ->
    (l = None <-> l' = None) ->
    (forall al al', l = Some al -> l' = Some al' ->
       Forall2 (fun p q => fst p = fst q /\ same_doc true (snd p) (snd q)) al al') ->
    Forall2 (same_doc false) k k' ->
    same_doc isalt (WNode t a x b l k) (WNode t a' x b' l' k').

(** * Proof *)
Lemma wnode_ind' (P : wnode -> Prop) :
  (forall t a x b l k, match l with Some l => Forall (fun kv => P (snd kv)) l | None => True end ->
     Forall P k -> P (WNode t a x b l k)) -> forall n, P n.
Proof.
  intro H. fix IH 1. intros [t a x b l k]. apply H.
  - destruct l as [l|]; [|exact I].
    induction l as [|[key v] l IHl]; constructor; [apply IH|assumption].
  - induction k as [|c k IHk]; constructor; [apply IH|assumption].
Qed.
Lemma walts_ind (P : wnode -> Prop) :
  (forall t a x b l k,
     Forall (fun c => P c /\ match walts c with Some l => Forall (fun kv => P (snd kv)) l | None => True end) k ->
     P (WNode t a x b l k)) -> forall n, P n.
Proof.
  intros H n.
  assert (P n /\ match walts n with Some l => Forall (fun kv => P (snd kv)) l | None => True end) as [A _];
    [|exact A].
  induction n as [t a x b l k IHl IHk] using wnode_ind'. split.
  - now apply H.
  - cbn [walts]. destruct l as [l|]; [|exact I]. eapply Forall_impl; [|exact IHl]. cbn. tauto.
Qed.

Section Proof.
  Variable dd silid : pystr.
  Notation wr := (wr dd silid).

  Definition group (alt : pystr) (c : wnode) : (node * wnode) * list (node * wnode) :=
    let '(o, c') := wr None c in
    match walts c with
    | None => ((o, c'), [])
    | Some al =>
        let al' := map (fun kv =>
                          let '(k, v) := kv in
                          let '(o, v') := wr (Some (alt_text alt k)) v in
                          (k, (o, mark v'))) al in
        ((o, wset_alts c' (Some (map (fun kv => let '(k, (_, v)) := kv in (k, v)) al'))),
         map snd (isort key_leb al'))
    end.
  Definition set_alt (seta : option pystr) (attrs : list (pystr * pystr)) :=
    match seta with Some a => dset streq attrs (lit "alt") a | None => attrs end.
  Definition alt_of (attrs : list (pystr * pystr)) : pystr :=
    match dget streq attrs (lit "alt") with Some a => a | None => [] end.
  Definition has_kids (kids : list wnode) : bool := match kids with [] => false | _ => true end.
  Definition out_attrs seta tag attrs (kids : list wnode) := drop_draft dd silid tag (set_alt seta attrs) (has_kids kids).

  (** the insertions put the alternates after their element *)
  Lemma insert_at_app {A} (pre post : list A) x : insert_at (List.length pre) x (pre ++ post) = pre ++ x :: post.
  Proof.
    unfold insert_at. rewrite firstn_app, skipn_app, firstn_all, skipn_all, Nat.sub_diag. cbn.
    now rewrite app_nil_r.
  Qed.
  Lemma put_fold {A} (als : list A) : forall i offset pre post,
    List.length pre = i + S offset ->
    fold_left (fun st a => let '(offset, acc) := st in (S offset, insert_at (i + S offset) a acc))
              als (offset, pre ++ post)
    = (offset + List.length als, pre ++ als ++ post).
  Proof.
    induction als as [|a als IH]; intros i offset pre post H; cbn [fold_left List.length app].
    - now rewrite Nat.add_0_r.
    - rewrite <- H, insert_at_app.
      replace (pre ++ a :: post) with ((pre ++ [a]) ++ post) by (now rewrite <- app_assoc).
      rewrite (IH i (S offset)) by (rewrite app_length; cbn; lia).
      rewrite <- app_assoc. cbn [app]. f_equal. lia.
  Qed.
  Lemma put_alts_spec {A} (cs : list (A * list A)) : forall i offset pre,
    List.length pre = i + offset ->
    put_alts i offset cs (pre ++ map fst cs) = pre ++ concat (map (fun g => fst g :: snd g) cs).
  Proof.
    induction cs as [|[c als] cs IH]; intros i offset pre H; cbn [put_alts map concat fst snd].
    - reflexivity.
    - replace (pre ++ c :: map fst cs) with ((pre ++ [c]) ++ map fst cs) by (now rewrite <- app_assoc).
      rewrite put_fold by (rewrite app_length; cbn; lia).
      rewrite !app_assoc. rewrite (IH (S i)) by (rewrite !app_length; cbn; lia).
      rewrite <- !app_assoc. cbn [app]. reflexivity.
  Qed.
  Lemma wr_eq seta t a x b l k :
    wr seta (WNode t a x b l k)
    = let attrs := out_attrs seta t a k in
      let all := concat (map (fun c => fst (group (alt_of attrs) c) :: snd (group (alt_of attrs) c)) k) in
      (Node t attrs x (map fst all),
       WNode t attrs x b l (filter (fun c => negb (wtemp c)) (map snd all))).
  Proof.
    cbn [M_WriteDrafts.wr].
    change (match seta with Some a0 => dset streq a (lit "alt") a0 | None => a end) with (set_alt seta a).
    change (match k with [] => false | _ => true end) with (has_kids k).
    change (drop_draft dd silid t (set_alt seta a) (has_kids k)) with (out_attrs seta t a k).
    change (match dget streq (out_attrs seta t a k) (lit "alt") with Some a0 => a0 | None => [] end)
      with (alt_of (out_attrs seta t a k)).
    set (attrs := out_attrs seta t a k). set (al := alt_of attrs). cbn zeta.
    match goal with |- context [map ?f k] => assert (map f k = map (group al) k) as -> end.
    { apply map_ext. intros [ct ca cx cb cl ck]. unfold group. cbn [walts].
      destruct (wr None _) as [o c']. destruct cl; reflexivity. }
    pose proof (put_alts_spec (map (group al) k) 0 0 [] eq_refl) as E. cbn [app] in E.
    rewrite E, map_map. reflexivity.
  Qed.

  (** ** Attributes *)
  Lemma in_dget {V} (d : list (pystr * V)) k v : NoDup (map fst d) -> (In (k, v) d <-> dget streq d k = Some v).
  Proof.
    intro N. split; [now apply (dget_NoDup_In _ streq_spec)|apply (dget_In _ streq_spec)].
  Qed.
  Lemma alt_draft : lit "alt" <> lit "draft".
  Proof. intro H. apply streq_true in H. discriminate. Qed.
  Lemma set_alt_NoDup seta a : NoDup (map fst a) -> NoDup (map fst (set_alt seta a)).
  Proof. destruct seta; [apply (dset_NoDup _ streq_spec)|auto]. Qed.
  Lemma set_alt_get seta a k :
    dget streq (set_alt seta a) k
    = match seta with Some v => if streq k (lit "alt") then Some v else dget streq a k | None => dget streq a k end.
  Proof.
    destruct seta as [v|]; cbn [set_alt]; [|reflexivity].
    destruct (streq_spec k (lit "alt")) as [->|N];
      [apply (dget_dset_same _ streq_spec)|now apply (dget_dset_other _ streq_spec)].
  Qed.
  Definition dropped tag attrs (hk : bool) : bool :=
    match dget streq attrs (lit "draft") with
    | Some (c :: d) => (hk || streq (c :: d) dd) && negb (streq tag silid)
    | _ => false
    end.
  Lemma drop_draft_eq tag attrs hk :
    drop_draft dd silid tag attrs hk = if dropped tag attrs hk then ddel streq attrs (lit "draft") else attrs.
  Proof.
    unfold drop_draft, dropped. destruct (dget streq attrs (lit "draft")) as [[|c d]|]; reflexivity.
  Qed.
  Lemma dropped_spec tag attrs kids : NoDup (map fst attrs) ->
    (dropped tag attrs (has_kids kids) = true <-> draft_dropped dd silid tag attrs kids).
  Proof.
    intro N. unfold dropped, draft_dropped.
    assert (has_kids kids = true <-> kids <> []) as HK by (destruct kids; cbn; intuition congruence).
    split.
    - destruct (dget streq attrs (lit "draft")) as [[|c d]|] eqn:G; try discriminate.
      intro H. apply andb_prop in H as [H1 H2]. exists (c :: d). split; [now apply (dget_In _ streq_spec)|].
      split; [discriminate|]. split.
      + apply orb_prop in H1 as [H1|H1]; [left; tauto|right; now apply streq_true].
      + apply negb_true_iff, streq_false in H2. exact H2.
    - intros (d & Hd & Nd & H1 & H2). apply (in_dget _ _ _ N) in Hd. rewrite Hd.
      destruct d as [|c d]; [congruence|]. apply andb_true_intro. split.
      + apply orb_true_iff. destruct H1 as [H1| ->]; [left; tauto|right; apply streq_refl].
      + apply negb_true_iff, streq_false. exact H2.
  Qed.
  Lemma dropped_set_alt tag seta attrs hk : dropped tag (set_alt seta attrs) hk = dropped tag attrs hk.
  Proof.
    unfold dropped. rewrite set_alt_get. destruct seta; [|reflexivity].
    destruct (streq_spec (lit "draft") (lit "alt")) as [E|_]; [|reflexivity].
    exfalso. now apply alt_draft.
  Qed.
  Lemma out_attrs_eq seta tag attrs kids :
    out_attrs seta tag attrs kids
    = if dropped tag attrs (has_kids kids) then ddel streq (set_alt seta attrs) (lit "draft") else set_alt seta attrs.
  Proof. unfold out_attrs. now rewrite drop_draft_eq, dropped_set_alt. Qed.
  Lemma out_attrs_NoDup seta tag attrs kids : NoDup (map fst attrs) -> NoDup (map fst (out_attrs seta tag attrs kids)).
  Proof.
    intro N. rewrite out_attrs_eq. destruct (dropped _ _ _); [apply ddel_NoDup|]; now apply set_alt_NoDup.
  Qed.
  Lemma out_attrs_get seta tag attrs kids k : NoDup (map fst attrs) ->
    dget streq (out_attrs seta tag attrs kids) k
    = if streq k (lit "draft") then if dropped tag attrs (has_kids kids) then None else dget streq attrs k
      else match seta with Some v => if streq k (lit "alt") then Some v else dget streq attrs k | None => dget streq attrs k end.
  Proof.
    intro N. rewrite out_attrs_eq. destruct (streq_spec k (lit "draft")) as [->|Nk].
    - destruct (dropped _ _ _).
      + rewrite (dget_ddel _ streq_spec) by now apply set_alt_NoDup. now rewrite streq_refl.
      + rewrite set_alt_get. destruct seta; [|reflexivity].
        destruct (streq_spec (lit "draft") (lit "alt")) as [E|_]; [|reflexivity].
        exfalso. now apply alt_draft.
    - destruct (dropped _ _ _); [rewrite dget_ddel_other by assumption|]; apply set_alt_get.
  Qed.
  Lemma attrs_written_out seta tag attrs kids : NoDup (map fst attrs) ->
    attrs_written dd silid seta tag attrs kids (out_attrs seta tag attrs kids).
  Proof.
    intro N. pose proof (out_attrs_NoDup seta tag attrs kids N) as N'.
    split; [exact N'|]. split; [|split].
    - intros k v N1 N2. rewrite (in_dget _ _ _ N'), (in_dget _ _ _ N), out_attrs_get by assumption.
      destruct (streq_spec k (lit "draft")); [contradiction|].
      destruct seta; [|tauto]. destruct (streq_spec k (lit "alt")); [contradiction|tauto].
    - intro v. rewrite (in_dget _ _ _ N'), out_attrs_get by assumption.
      destruct (streq_spec (lit "alt") (lit "draft")) as [E|_]; [now apply alt_draft in E|].
      destruct seta as [a|].
      + rewrite streq_refl. split; congruence.
      + now rewrite (in_dget _ _ _ N).
    - intro v. rewrite (in_dget _ _ _ N'), (in_dget _ _ _ N), out_attrs_get by assumption.
      rewrite streq_refl. rewrite <- dropped_spec by assumption.
      destruct (dropped _ _ _); intuition congruence.
  Qed.

  (** ** What is written *)
  Definition alist (c : wnode) : list (pystr * wnode) := match walts c with Some al => al | None => [] end.
  Lemma group_eq alt c :
    group alt c
    = ((fst (wr None c),
        match walts c with
        | Some al => wset_alts (snd (wr None c))
                       (Some (map (fun kv => (fst kv, mark (snd (wr (Some (alt_text alt (fst kv))) (snd kv))))) al))
        | None => snd (wr None c)
        end),
       map (fun kv => (fst (wr (Some (alt_text alt (fst kv))) (snd kv)),
                       mark (snd (wr (Some (alt_text alt (fst kv))) (snd kv)))))
           (isort key_leb (alist c))).
  Proof.
    unfold group, alist. destruct (wr None c) as [o c']. cbn [fst snd].
    destruct (walts c) as [al|]; [|reflexivity].
    set (F := fun kv : pystr * wnode => let '(k, v) := kv in
                let '(o, v') := wr (Some (alt_text alt k)) v in (k, (o, mark v'))).
    rewrite (isort_map _ _ F key_leb key_leb).
    2:{ intros [k1 v1] [k2 v2]. unfold F, key_leb. destruct (wr _ v1), (wr _ v2). reflexivity. }
    rewrite !map_map. f_equal.
    - f_equal. f_equal. f_equal. apply map_ext. intros [k v]. unfold F. cbn [fst snd].
      destruct (wr _ v). reflexivity.
    - apply map_ext. intros [k v]. unfold F. cbn [fst snd]. destruct (wr _ v). reflexivity.
  Qed.
  Lemma concat_map_map {A B} (f : A -> B) l : map f (concat l) = concat (map (map f) l).
  Proof. apply concat_map. Qed.
  Lemma key_leb_total {A} (x y : pystr * A) : key_leb x y = true \/ key_leb y x = true.
  Proof. apply strleb_total. Qed.
  Lemma key_leb_trans {A} (x y z : pystr * A) : key_leb x y = true -> key_leb y z = true -> key_leb x z = true.
  Proof. apply strleb_trans. Qed.
  Lemma Forall2_map_r (A B C : Type) (f : A -> B) (R : C -> B -> Prop) l l' :
    Forall2 (fun c a => R c (f a)) l l' -> Forall2 R l (map f l').
  Proof. induction 1; cbn; constructor; auto. Qed.
  Lemma Forall2_same {A} (R : A -> A -> Prop) l : Forall (fun x => R x x) l -> Forall2 R l l.
  Proof. induction 1; constructor; auto. Qed.

  Lemma writes_wr n : forall seta, wf n -> writes dd silid seta n (fst (wr seta n)).
  Proof.
    induction n as [t a x b l k IH] using walts_ind. intros seta W.
    inversion W as [t0 a0 x0 b0 l0 k0 Na Wl Wk]. subst.
    rewrite wr_eq. cbn zeta. cbn [fst]. rewrite concat_map_map, map_map.
    pose proof (attrs_written_out seta t a k Na) as AW.
    set (attrs := out_attrs seta t a k) in *. set (alt := alt_of attrs).
    assert (forall key, (exists p, In (lit "alt", p) attrs /\ p <> [] /\ alt_text alt key = p ++ lit "-" ++ key)
              \/ ((forall p, In (lit "alt", p) attrs -> p = []) /\ alt_text alt key = key)) as HA.
    { intro key. destruct AW as (N' & _). unfold alt, alt_of.
      destruct (dget streq attrs (lit "alt")) as [[|c p]|] eqn:G.
      - right. split; [|reflexivity]. intros p Hp. apply (in_dget _ _ _ N') in Hp. congruence.
      - left. exists (c :: p). split; [now apply (in_dget _ _ _ N')|]. split; [discriminate|reflexivity].
      - right. split; [|reflexivity]. intros p Hp. apply (in_dget _ _ _ N') in Hp. congruence. }
    apply Writes; [exact AW|]. apply Forall2_map_r, Forall2_same.
    rewrite Forall_forall in IH, Wk |- *. intros c Hc. destruct (IH c Hc) as [IHc IHa].
    specialize (Wk c Hc). rewrite group_eq. cbn [fst snd map].
    rewrite map_map. cbn [fst].
    eexists _, _, (isort key_leb (alist c)). split; [reflexivity|]. split; [now apply IHc|].
    split; [apply Permutation_sym, isort_perm|].
    split; [apply isort_sorted; [apply key_leb_total|apply key_leb_trans]|].
    apply Forall2_map_r, Forall2_same, Forall_forall. intros [key v] Hkv. cbn [fst snd].
    exists (alt_text alt key). split; [|apply HA].
    apply in_isort in Hkv. unfold alist in Hkv. destruct (walts c) as [al|] eqn:El; [|destruct Hkv].
    rewrite Forall_forall in IHa. apply (IHa _ Hkv).
    inversion Wk; subst. cbn [walts] in El. destruct (H0 _ El) as [_ F]. rewrite Forall_forall in F.
    exact (F _ Hkv).
  Qed.

  (** ** What is left in memory *)
  Lemma wr_temp seta n : wtemp (snd (wr seta n)) = wtemp n.
  Proof. destruct n. rewrite wr_eq. reflexivity. Qed.
  Lemma wset_alts_temp n l : wtemp (wset_alts n l) = wtemp n.
  Proof. now destruct n. Qed.
  Lemma mark_temp n : wtemp (mark n) = true.
  Proof. now destruct n. Qed.
  Definition left_kid (alt : pystr) (c : wnode) : wnode := snd (fst (group alt c)).
  Lemma left_kid_temp alt c : wtemp (left_kid alt c) = wtemp c.
  Proof.
    unfold left_kid. rewrite group_eq. cbn [fst snd].
    destruct (walts c); [rewrite wset_alts_temp|]; apply wr_temp.
  Qed.
  Lemma group_marked alt c : forall p, In p (snd (group alt c)) -> wtemp (snd p) = true.
  Proof.
    rewrite group_eq. cbn [snd]. intros p H. apply in_map_iff in H as (kv & <- & _). apply mark_temp.
  Qed.
  Lemma left_kids alt k :
    filter (fun c => negb (wtemp c)) (map snd (concat (map (fun c => fst (group alt c) :: snd (group alt c)) k)))
    = map (left_kid alt) (filter (fun c => negb (wtemp c)) k).
  Proof.
    induction k as [|c k IH]; cbn [map concat filter]; [reflexivity|].
    cbn [app map filter]. rewrite map_app, filter_app, IH.
    change (snd (fst (group alt c))) with (left_kid alt c). rewrite left_kid_temp.
    assert (filter (fun c => negb (wtemp c)) (map snd (snd (group alt c))) = []) as ->.
    { pose proof (group_marked alt c) as G. induction (snd (group alt c)) as [|p l IHl]; [reflexivity|].
      cbn [map filter]. rewrite (G p) by now left. cbn. apply IHl. intros q Hq. apply G. now right. }
    cbn [app]. destruct (wtemp c); reflexivity.
  Qed.
  Lemma filter_clean k : Forall (fun c => wtemp c = false /\ clean_doc c) k ->
    filter (fun c => negb (wtemp c)) k = k.
  Proof. induction 1 as [|c k [H _] _ IH]; cbn; [reflexivity|]. rewrite H. cbn. now rewrite IH. Qed.
  Lemma wr_left seta t a x b l k : clean_doc (WNode t a x b l k) ->
    snd (wr seta (WNode t a x b l k))
    = let attrs := out_attrs seta t a k in WNode t attrs x b l (map (left_kid (alt_of attrs)) k).
  Proof.
    intro C. inversion C; subst. rewrite wr_eq. cbn zeta. cbn [snd]. rewrite left_kids.
    now rewrite filter_clean.
  Qed.

  Lemma same_doc_refl n : forall isalt, same_doc isalt n n.
  Proof.
    induction n as [t a x b l k IHl IHk] using wnode_ind'. intro isalt. constructor; try tauto.
    - intros al al' E1 E2. assert (al' = al) by congruence. subst.
      apply Forall2_same. eapply Forall_impl; [|exact IHl]. cbn. auto.
    - apply Forall2_same. eapply Forall_impl; [|exact IHk]. cbn. auto.
  Qed.
  Lemma same_doc_mark n n' : same_doc true n n' -> same_doc true n (mark n').
  Proof. intro H. inversion H; subst. cbn [mark]. constructor; auto. discriminate. Qed.
  Lemma same_doc_alts c c' al al' : same_doc false c c' -> walts c = Some al ->
    Forall2 (fun p q => fst p = fst q /\ same_doc true (snd p) (snd q)) al al' ->
    same_doc false c (wset_alts c' (Some al')).
  Proof.
    intros H E F. inversion H; subst. cbn [walts] in E. subst. cbn [wset_alts]. constructor; auto.
    - split; discriminate.
    - intros al0 al1 E0 E1. injection E0 as <-. injection E1 as <-. exact F.
  Qed.
  Lemma out_attrs_same seta isalt t a k : NoDup (map fst a) -> (seta = None \/ isalt = true) ->
    (forall key v, key <> lit "draft" -> (key <> lit "alt" \/ isalt = false) ->
       (In (key, v) (out_attrs seta t a k) <-> In (key, v) a))
    /\ (forall v, In (lit "draft", v) (out_attrs seta t a k) -> In (lit "draft", v) a).
  Proof.
    intros N H. destruct (attrs_written_out seta t a k N) as (N' & A1 & A2 & A3). split.
    - intros key v Nd [Na| ->]; [now apply A1|].
      destruct H as [->|]; [|discriminate]. destruct (streq_spec key (lit "alt")) as [->|Na]; [apply A2|now apply A1].
    - intros v Hv. apply A3 in Hv. tauto.
  Qed.
  Lemma wf_alts c al key v : wf c -> walts c = Some al -> In (key, v) al -> wf v.
  Proof.
    intros W E H. inversion W; subst. cbn [walts] in E. destruct (H1 _ E) as [_ F].
    rewrite Forall_forall in F. exact (F _ H).
  Qed.
  Lemma clean_alts c al key v : clean_doc c -> walts c = Some al -> In (key, v) al -> clean_doc v.
  Proof.
    intros W E H. inversion W; subst. cbn [walts] in E. specialize (H0 _ E).
    rewrite Forall_forall in H0. exact (H0 _ H).
  Qed.
  Lemma unchanged n : forall seta isalt, wf n -> clean_doc n -> (seta = None \/ isalt = true) ->
    same_doc isalt n (snd (wr seta n)).
  Proof.
    induction n as [t a x b l k IH] using walts_ind. intros seta isalt W C Hs.
    rewrite (wr_left _ _ _ _ _ _ _ C). cbn zeta.
    inversion W as [t0 a0 x0 b0 l0 k0 Na Wl Wk]. inversion C as [t1 a1 x1 b1 l1 k1 Cl Ck]. subst.
    destruct (out_attrs_same seta isalt t a k Na Hs) as [A1 A2].
    constructor; auto; [tauto| |].
    - intros al al' E1 E2. assert (al' = al) by congruence. subst.
      apply Forall2_same, Forall_forall. intros kv _. split; [reflexivity|]. apply same_doc_refl.
    - apply Forall2_map_r, Forall2_same. rewrite Forall_forall in IH, Wk, Ck |- *. intros c Hc.
      destruct (IH c Hc) as [IHc IHa]. specialize (Wk c Hc). destruct (Ck c Hc) as [_ Cc].
      unfold left_kid. rewrite group_eq. cbn [fst snd].
      destruct (walts c) as [al|] eqn:El; [|apply IHc; auto].
      apply same_doc_alts with al; [apply IHc; auto|assumption|].
      apply Forall2_map_r, Forall2_same, Forall_forall. intros [key v] Hkv. cbn [fst snd].
      split; [reflexivity|]. apply same_doc_mark. rewrite Forall_forall in IHa.
      apply (IHa _ Hkv); [|cbn [snd]|now right].
      + eapply wf_alts; eauto.
      + eapply clean_alts; eauto.
  Qed.

  (** ** Writing again *)
  Lemma dset_id (d : list (pystr * pystr)) k v : dget streq d k = Some v -> dset streq d k v = d.
  Proof.
    induction d as [|[k' v'] d IH]; cbn; [discriminate|].
    destruct (streq_spec k k') as [->|N]; intro H; [congruence|]. now rewrite IH.
  Qed.
  Lemma out_attrs_idem seta t a k k' : NoDup (map fst a) -> has_kids k' = has_kids k ->
    out_attrs seta t (out_attrs seta t a k) k' = out_attrs seta t a k.
  Proof.
    intros N HK. set (a' := out_attrs seta t a k). rewrite out_attrs_eq, HK.
    assert (forall key, dget streq a' key = _) as G by (intro; apply out_attrs_get; assumption).
    assert (dropped t a' (has_kids k) = false) as ->.
    { unfold dropped. rewrite G, streq_refl. destruct (dropped t a (has_kids k)) eqn:D; [reflexivity|].
      unfold dropped in D. destruct (dget streq a (lit "draft")) as [[|]|]; auto. }
    destruct seta as [v|]; [|reflexivity]. cbn [set_alt]. apply dset_id. rewrite G, streq_refl.
    destruct (streq_spec (lit "alt") (lit "draft")) as [E|_]; [now apply alt_draft in E|reflexivity].
  Qed.
  Lemma wr_wset_alts seta n l :
    wr seta (wset_alts n l) = (fst (wr seta n), wset_alts (snd (wr seta n)) l).
  Proof. destruct n. cbn [wset_alts]. rewrite !wr_eq. reflexivity. Qed.
  Lemma wr_mark seta n : wr seta (mark n) = (fst (wr seta n), mark (snd (wr seta n))).
  Proof. destruct n. cbn [mark]. rewrite !wr_eq. reflexivity. Qed.
  Lemma wset_alts_twice n l l' : wset_alts (wset_alts n l) l' = wset_alts n l'.
  Proof. now destruct n. Qed.
  Lemma mark_twice n : mark (mark n) = mark n.
  Proof. now destruct n. Qed.
  Lemma walts_wset n l : walts (wset_alts n l) = l.
  Proof. now destruct n. Qed.
  Lemma walts_wr seta n : walts (snd (wr seta n)) = walts n.
  Proof. destruct n. rewrite wr_eq. reflexivity. Qed.

  Lemma group_again alt c :
    (forall seta, wr seta (snd (wr seta c)) = wr seta c) ->
    (forall key v, In (key, v) (alist c) -> forall seta, wr seta (snd (wr seta v)) = wr seta v) ->
    group alt (left_kid alt c) = group alt c.
  Proof.
    intros Hc Ha. unfold left_kid. rewrite (group_eq alt c). cbn [fst snd].
    unfold alist in *. destruct (walts c) as [al|] eqn:El.
    - rewrite (group_eq alt (wset_alts _ _)). rewrite walts_wset, wr_wset_alts. cbn [fst snd].
      rewrite Hc, wset_alts_twice, map_map. cbn [fst snd]. unfold alist. rewrite walts_wset.
      rewrite (isort_map _ _ _ key_leb key_leb) by (intros [] []; reflexivity). rewrite map_map. cbn [fst snd].
      f_equal; [f_equal; f_equal; f_equal; apply map_ext_in|apply map_ext_in].
      + intros [key v] Hkv. cbn [fst snd]. rewrite wr_mark. cbn [snd]. rewrite mark_twice.
        now rewrite (Ha key v Hkv).
      + intros [key v] Hkv. apply in_isort in Hkv. cbn [fst snd]. rewrite wr_mark. cbn [fst snd].
        rewrite mark_twice. now rewrite (Ha key v Hkv).
    - rewrite group_eq. unfold alist. rewrite walts_wr, El. rewrite Hc. reflexivity.
  Qed.
  Lemma again n : wf n -> clean_doc n -> forall seta, wr seta (snd (wr seta n)) = wr seta n.
  Proof.
    induction n as [t a x b l k IH] using walts_ind. intros W C seta.
    rewrite (wr_left _ _ _ _ _ _ _ C). cbn zeta.
    inversion W as [t0 a0 x0 b0 l0 k0 Na Wl Wk]. inversion C as [t1 a1 x1 b1 l1 k1 Cl Ck]. subst.
    rewrite !wr_eq. cbn zeta.
    rewrite (out_attrs_idem seta t a k _ Na) by (destruct k; reflexivity).
    set (attrs := out_attrs seta t a k). set (alt := alt_of attrs).
    rewrite map_map.
    assert (map (fun c => fst (group alt (left_kid alt c)) :: snd (group alt (left_kid alt c))) k
            = map (fun c => fst (group alt c) :: snd (group alt c)) k) as ->; [|reflexivity].
    apply map_ext_in. intros c Hc. rewrite Forall_forall in IH, Wk, Ck.
    destruct (IH c Hc) as [IHc IHa]. specialize (Wk c Hc). destruct (Ck c Hc) as [_ Cc].
    rewrite group_again; [reflexivity|auto|]. intros key v Hkv seta'. unfold alist in Hkv.
    destruct (walts c) as [al|] eqn:El; [|destruct Hkv]. rewrite Forall_forall in IHa.
    apply (IHa _ Hkv); cbn [snd]; [eapply wf_alts|eapply clean_alts]; eauto.
  Qed.
End Proof.

Theorem C63_written : forall dd silid n, wf n -> writes dd silid None n (fst (wr dd silid None n)).
Proof. intros. now apply writes_wr. Qed.

Theorem C63_unchanged : forall dd silid n, wf n -> clean_doc n ->
  same_doc false n (snd (wr dd silid None n)).
Proof. intros. apply unchanged; auto. Qed.

(** Writing once more gives the same elements and changes nothing. *)
Theorem C63_again : forall dd silid n, wf n -> clean_doc n ->
  wr dd silid None (snd (wr dd silid None n)) = wr dd silid None n.
Proof. intros. now apply again. Qed.
