(** C22: the key hash and the content hash of an element. *)
From Coq Require Import String Znumtheory.
From Verif Require Import Py PyFacts M_LdmlBase.
Local Open Scope list_scope.

(** induction over trees *)
Lemma node_ind' (P : node -> Prop) :
  (forall t a x k, Forall P k -> P (Node t a x k)) -> forall n, P n.
Proof.
  intro H. fix IH 1. intros [t a x k]. apply H.
  induction k as [|n k IHk]; constructor; auto.
Qed.

(** ** The hash as a polynomial in the hashed words *)
Definition hstep (x y : Z) : Z := ((x * hmult + y) mod hmod)%Z.
Definition poly (l : list Z) : Z := fold_left hstep l 0%Z.

Lemma hmod_pos : (0 < hmod)%Z. Proof. reflexivity. Qed.
Lemma hstep_mod x y : hstep (x mod hmod) y = hstep x y.
Proof.
  unfold hstep. rewrite Z.add_mod, Z.mul_mod, Z.mod_mod by discriminate.
  rewrite <- Z.mul_mod, <- Z.add_mod by discriminate. reflexivity.
Qed.
Lemma fold_raw l a :
  ((fold_left (fun x y => x * hmult + y) l a) mod hmod = fold_left hstep l (a mod hmod))%Z.
Proof.
  revert a. induction l as [|y l IH]; intro a; cbn; [reflexivity|].
  rewrite IH. f_equal. rewrite hstep_mod. reflexivity.
Qed.
Lemma hupdate_fold hasher h vec :
  hupdate hasher h vec = fold_left hstep (map hasher vec) (h mod hmod)%Z.
Proof. unfold hupdate. apply fold_raw. Qed.
Lemma fold_hstep_range l a : (0 <= a < hmod -> 0 <= fold_left hstep l a < hmod)%Z.
Proof.
  revert a. induction l as [|y l IH]; intros a H; cbn; [assumption|].
  apply IH. apply Z.mod_pos_bound. reflexivity.
Qed.
Lemma poly_range l : (0 <= poly l < hmod)%Z.
Proof. apply fold_hstep_range. split; [lia|reflexivity]. Qed.
Lemma poly_app l l' : poly (l ++ l') = fold_left hstep l' (poly l).
Proof. apply fold_left_app. Qed.

(** ** The words hashed by an element, from the code *)
Section Words.
  Variable hasher : pystr -> Z.
  Variable m : meta.
  Variable usedrafts : bool.

  (** the attributes that count for the key hash, and for the content hash only *)
  Definition is_key (tag : pystr) (kv : pystr * pystr) : bool :=
    negb (usedrafts && streq (fst kv) (lit "alt")) && is_dist m usedrafts tag (fst kv).
  Definition is_content (tag : pystr) (kv : pystr * pystr) : bool :=
    negb (usedrafts && streq (fst kv) (lit "alt")) && negb (is_dist m usedrafts tag (fst kv))
    && (negb usedrafts
        || (negb (streq (fst kv) (lit "draft")) && negb (streq (fst kv) (lit "alt"))
            && negb (streq (fst kv) (siltag (lit "alias"))))).
  Definition flat (l : list (pystr * pystr)) : list pystr := flat_map (fun kv => [fst kv; snd kv]) l.
  Definition key_words (tag : pystr) (attrs : list (pystr * pystr)) : list Z :=
    map hasher (tag :: flat (filter (is_key tag) (isort pairleb attrs))).
  Definition text_lines (text : option pystr) : list pystr :=
    match text with Some (c :: s) => split_on 10%N (c :: s) | _ => [] end.
  Definition content_words (tag : pystr) (attrs : list (pystr * pystr)) (text : option pystr)
      (kidhashes : list Z) : list Z :=
    kidhashes ++ map hasher (text_lines text)
    ++ map hasher (flat (filter (is_content tag) (isort pairleb attrs)))
    ++ [poly (key_words tag attrs)].

  Lemma attr_step_fold tag l wa wc :
    fold_left (attr_step hasher m usedrafts tag) l (poly wa, poly wc)
    = (poly (wa ++ map hasher (flat (filter (is_key tag) l))),
       poly (wc ++ map hasher (flat (filter (is_content tag) l)))).
  Proof.
    revert wa wc. induction l as [|[k v] l IH]; intros wa wc; cbn [fold_left].
    - cbn. now rewrite !app_nil_r.
    - assert (forall w, hupdate hasher (poly w) [k; v] = poly (w ++ map hasher [k; v])) as U.
      { intro w. rewrite hupdate_fold, poly_app.
        rewrite Z.mod_small by apply poly_range. reflexivity. }
      cbn [filter]. unfold is_key, is_content at 1, attr_step at 2. cbn [fst snd].
      fold (is_key tag). fold (is_content tag).
      destruct (usedrafts && streq k (lit "alt")) eqn:E1; cbn [negb andb].
      + apply IH.
      + destruct (is_dist m usedrafts tag k) eqn:E2; cbn [negb andb].
        * rewrite U, IH. cbn [flat flat_map app fst snd map]. now rewrite <- app_assoc.
        * destruct (negb usedrafts || _) eqn:E3.
          -- rewrite U, IH. cbn [flat flat_map app fst snd map]. now rewrite <- app_assoc.
          -- apply IH.
  Qed.

  Lemma calc_hashes_words tag attrs text kh :
    calc_hashes hasher m usedrafts tag attrs text kh
    = (poly (key_words tag attrs), poly (content_words tag attrs text kh)).
  Proof.
    unfold calc_hashes.
    change (fold_left hmerge kh 0%Z) with (poly kh).
    replace (match text with Some (c :: s) => hupdate hasher (poly kh) (split_on 10 (c :: s))
             | _ => poly kh end) with (poly (kh ++ map hasher (text_lines text))).
    - change (hupdate hasher 0 [tag]) with (poly (map hasher [tag])).
      rewrite attr_step_fold. unfold content_words.
      rewrite !app_assoc. rewrite (poly_app _ [_]). reflexivity.
    - destruct text as [[|c s]|]; cbn [text_lines map]; rewrite ?app_nil_r; try reflexivity.
      rewrite hupdate_fold, poly_app, Z.mod_small by apply poly_range. reflexivity.
  Qed.
  Lemma node_hashes_words tag attrs text kids :
    node_hashes hasher m usedrafts (Node tag attrs text kids)
    = (poly (key_words tag attrs),
       poly (content_words tag attrs text (map (content_hash hasher m usedrafts) kids))).
  Proof. cbn [node_hashes]. apply calc_hashes_words. Qed.
End Words.

(** ** Order of attributes *)
Lemma pairleb_total a b : pairleb a b = true \/ pairleb b a = true.
Proof.
  unfold pairleb. rewrite (strcmp_antisym (fst a) (fst b)).
  destruct (strcmp (fst a) (fst b)); cbn; auto. apply strleb_total.
Qed.
Lemma pairleb_trans a b c : pairleb a b = true -> pairleb b c = true -> pairleb a c = true.
Proof.
  unfold pairleb. intros H1 H2.
  destruct (strcmp (fst a) (fst b)) eqn:E1; [| |discriminate].
  - apply strcmp_eq in E1. rewrite E1.
    destruct (strcmp (fst b) (fst c)) eqn:E2; auto. eapply strleb_trans; eauto.
  - destruct (strcmp (fst b) (fst c)) eqn:E2; [| |discriminate].
    + apply strcmp_eq in E2. now rewrite <- E2, E1.
    + now rewrite (strcmp_trans _ _ _ E1 E2).
Qed.
Lemma pairleb_antisym a b : pairleb a b = true -> pairleb b a = true -> a = b.
Proof.
  unfold pairleb. rewrite (strcmp_antisym (fst a) (fst b)).
  destruct (strcmp (fst a) (fst b)) eqn:E; cbn; try discriminate.
  intros H1 H2. apply strcmp_eq in E. destruct a, b; cbn in *. subst.
  f_equal. now apply strleb_antisym.
Qed.
Lemma pair_isort_perm l l' : Permutation l l' -> isort pairleb l = isort pairleb l'.
Proof.
  intro P. apply (isort_perm_eq pairleb pairleb_total pairleb_trans); [|exact P].
  intros a b _ _ H1 H2. now apply pairleb_antisym.
Qed.

(** Two trees that differ only in the order in which attributes are written. *)
Inductive same_up_to_order : node -> node -> Prop :=
| same_node t a a' x k k' :
    Permutation a a' -> Forall2 same_up_to_order k k' ->
    same_up_to_order (Node t a x k) (Node t a' x k').

Theorem C22_order hasher m ud n n' :
  same_up_to_order n n' ->
  attr_hash hasher m ud n = attr_hash hasher m ud n'
  /\ content_hash hasher m ud n = content_hash hasher m ud n'.
Proof.
  revert n'. induction n as [t a x k IH] using node_ind'. intros n' H.
  inversion H as [? ? a' ? ? k' P F]; subst.
  unfold attr_hash, content_hash. rewrite !node_hashes_words. cbn [fst snd].
  unfold content_words, key_words. rewrite (pair_isort_perm _ _ P).
  split; [reflexivity|].
  replace (map (content_hash hasher m ud) k') with (map (content_hash hasher m ud) k); [reflexivity|].
  clear H. induction F as [|y y' l l' Hy F IHF]; [reflexivity|].
  inversion IH; subst. cbn. f_equal; auto. now apply H1.
Qed.

(** both hashes fit in 64 bits *)
Theorem C22_64_bits hasher m ud n :
  (0 <= attr_hash hasher m ud n < 2 ^ 64 /\ 0 <= content_hash hasher m ud n < 2 ^ 64)%Z.
Proof.
  destruct n as [t a x k]. unfold attr_hash, content_hash. rewrite node_hashes_words.
  split; apply poly_range.
Qed.

(** The distinguishing attributes of a tag, as the metadata files describe them. *)
Definition distinguishing (m : meta) (ud : bool) (tag k : pystr) : Prop :=
  ((In k (m_keys m) /\ ~ (exists s, dget streq (m_nonkey m) tag = Some s /\ In k s))
   \/ (exists s, dget streq (m_key m) tag = Some s /\ In k s))
  /\ ~ (ud = true /\ (k = lit "draft" \/ k = lit "alt")).
Lemma memstr_In k l : memstr k l = true <-> In k l.
Proof.
  unfold memstr. rewrite existsb_exists. split.
  - intros (x & H & E). apply streq_true in E. now subst.
  - intro H. exists k. split; [assumption|apply streq_refl].
Qed.
Lemma is_key_spec m ud tag kv : is_key m ud tag kv = true <-> distinguishing m ud tag (fst kv).
Proof.
  destruct kv as [k v]. cbn [fst]. unfold is_key, is_dist, distinguishing.
  assert (forall d, memstr k (match dget streq d tag with Some s => s | None => [] end) = true
          <-> (exists s, dget streq d tag = Some s /\ In k s)) as M.
  { intro d. rewrite memstr_In. destruct (dget streq d tag) as [s|]; split.
    - eauto.
    - intros (s' & E & H). now injection E as ->.
    - intros [].
    - intros (s' & E & _). discriminate. }
  cbn [fst]. rewrite !andb_true_iff, !orb_true_iff, !andb_true_iff, !negb_true_iff.
  rewrite <- (M (m_key m)), <- (M (m_nonkey m)), <- (memstr_In k (m_keys m)).
  rewrite <- !not_true_iff_false, !andb_true_iff, !streq_true. tauto.
Qed.

(** The key hash depends on nothing but the tag and the distinguishing attributes. *)
Theorem C22_key_only hasher m ud t a a' x x' k k' :
  (forall kv, distinguishing m ud t (fst kv) -> (In kv a <-> In kv a')) ->
  NoDup (map fst a) -> NoDup (map fst a') ->
  attr_hash hasher m ud (Node t a x k) = attr_hash hasher m ud (Node t a' x' k').
Proof.
  intros H N N'. unfold attr_hash. rewrite !node_hashes_words. cbn [fst].
  unfold key_words. do 4 f_equal.
  assert (forall l, filter (is_key m ud t) (isort pairleb l) = isort pairleb (filter (is_key m ud t) l)) as K.
  { intro l. apply (sorted_perm_unique pairleb).
    - intros p q _ _ H1 H2. now apply pairleb_antisym.
    - pose proof (isort_sorted pairleb pairleb_total pairleb_trans l) as S.
      induction S as [|y l' S IH F]; cbn; [constructor|].
      destruct (is_key m ud t y); [|assumption]. constructor; [assumption|].
      rewrite Forall_forall in *. intros z Hz. apply filter_In in Hz. now apply F.
    - apply (isort_sorted pairleb pairleb_total pairleb_trans).
    - rewrite <- (isort_perm pairleb (filter (is_key m ud t) l)).
      pose proof (isort_perm pairleb l) as P. symmetry in P.
      clear -P. induction P; cbn.
      + reflexivity.
      + destruct (is_key m ud t x); auto.
      + destruct (is_key m ud t y), (is_key m ud t x); auto. constructor.
      + etransitivity; eauto. }
  rewrite !K. apply pair_isort_perm.
  apply NoDup_Permutation.
  - apply NoDup_filter. now apply NoDup_map_inv in N.
  - apply NoDup_filter. now apply NoDup_map_inv in N'.
  - intro kv. rewrite !filter_In, !is_key_spec. split; intros [H1 H2]; split; auto; now apply H.
Qed.

(** ** What the hashes notice: one changed word always changes the hash. *)
Lemma hmult_coprime a b : ((a * hmult) mod hmod = (b * hmult) mod hmod -> a mod hmod = b mod hmod)%Z.
Proof.
  intro H.
  assert ((hmod | (a - b) * hmult))%Z as D.
  { apply Z.mod_divide; [discriminate|]. rewrite Z.mul_sub_distr_r, Zminus_mod, H.
    rewrite Z.sub_diag. reflexivity. }
  assert (rel_prime hmod hmult) as R.
  { apply bezout_rel_prime.
    destruct (Z.ggcd hmod hmult) as [g p] eqn:Eg.
    pose proof (Z.gcd_bezout hmod hmult 1 eq_refl) as (u & v & E).
    apply Bezout_intro with (u := u) (v := v). lia. }
  rewrite Z.mul_comm in D. apply Gauss in D; [|assumption].
  destruct D as [c D].
  replace a with (b + c * hmod)%Z by lia. now rewrite Z.mod_add by discriminate.
Qed.
Lemma hstep_inj_l x x' y : hstep x y = hstep x' y -> (x mod hmod = x' mod hmod)%Z.
Proof.
  unfold hstep. intro H. apply hmult_coprime.
  assert (((x * hmult + y) - y) mod hmod = ((x' * hmult + y) - y) mod hmod)%Z as E.
  { rewrite Zminus_mod, H, <- Zminus_mod. reflexivity. }
  now rewrite !Z.add_simpl_r in E.
Qed.
Lemma hstep_inj_r x y y' : hstep x y = hstep x y' -> (y mod hmod = y' mod hmod)%Z.
Proof.
  unfold hstep. intro H.
  assert (((x * hmult + y) - x * hmult) mod hmod = ((x * hmult + y') - x * hmult) mod hmod)%Z as E.
  { rewrite Zminus_mod, H, <- Zminus_mod. reflexivity. }
  now rewrite !Z.add_simpl_l in E.
Qed.
Lemma fold_hstep_inj l a b :
  (0 <= a < hmod -> 0 <= b < hmod -> fold_left hstep l a = fold_left hstep l b -> a = b)%Z.
Proof.
  revert a b. induction l as [|y l IH]; cbn; intros a b Ha Hb H; [assumption|].
  apply IH in H; try (apply Z.mod_pos_bound; reflexivity).
  apply hstep_inj_l in H. now rewrite !Z.mod_small in H by assumption.
Qed.
Lemma poly_one_changed l a b l' :
  (a mod hmod <> b mod hmod)%Z -> poly (l ++ a :: l') <> poly (l ++ b :: l').
Proof.
  intros H E. apply H. rewrite !poly_app in E. cbn [fold_left] in E.
  apply fold_hstep_inj in E; try (apply Z.mod_pos_bound; reflexivity).
  now apply hstep_inj_r in E.
Qed.

(** sorting by key is not disturbed by changing one value *)
Definition setval (k v : pystr) (kv : pystr * pystr) : pystr * pystr :=
  if streq (fst kv) k then (fst kv, v) else kv.
Lemma setval_fst k v kv : fst (setval k v kv) = fst kv.
Proof. unfold setval. destruct (streq (fst kv) k); reflexivity. Qed.
Lemma pairleb_setval k v a b :
  fst a <> fst b -> pairleb (setval k v a) (setval k v b) = pairleb a b.
Proof.
  intro H. unfold pairleb. rewrite !setval_fst.
  destruct (strcmp (fst a) (fst b)) eqn:E; auto. apply strcmp_eq in E. congruence.
Qed.
Lemma insert_setval k v x l :
  ~ In (fst x) (map fst l) ->
  insert pairleb (setval k v x) (map (setval k v) l) = map (setval k v) (insert pairleb x l).
Proof.
  induction l as [|y l IH]; cbn [map insert]; intro H; [reflexivity|]. cbn in H.
  rewrite pairleb_setval by (intro E; apply H; auto).
  destruct (pairleb x y); cbn [map]; [reflexivity|]. rewrite IH by tauto. reflexivity.
Qed.
Lemma isort_setval k v l :
  NoDup (map fst l) -> isort pairleb (map (setval k v) l) = map (setval k v) (isort pairleb l).
Proof.
  induction l as [|x l IH]; cbn [map isort]; intro H; [reflexivity|].
  inversion H; subst. rewrite IH by assumption. apply insert_setval.
  intro Hin. apply H2. apply in_map_iff in Hin as (z & E & Hz).
  apply in_isort in Hz. apply in_map_iff. eauto.
Qed.
Lemma setval_other k v l : ~ In k (map fst l) -> map (setval k v) l = l.
Proof.
  intro H. induction l as [|x l IH]; [reflexivity|]. cbn in *. rewrite IH by tauto.
  f_equal. unfold setval. destruct (streq_spec (fst x) k); [tauto|reflexivity].
Qed.
Lemma setval_split k v v' a b :
  NoDup (map fst (a ++ (k, v) :: b)) ->
  map (setval k v') (a ++ (k, v) :: b) = a ++ (k, v') :: b.
Proof.
  intro H. rewrite map_app in *. cbn in *. apply NoDup_remove_2 in H.
  rewrite in_app_iff in H. rewrite !setval_other by tauto.
  unfold setval. cbn. now rewrite streq_refl.
Qed.
Lemma sorted_split k v a b :
  NoDup (map fst (a ++ (k, v) :: b)) ->
  exists p q, forall v', isort pairleb (a ++ (k, v') :: b) = p ++ (k, v') :: q.
Proof.
  intro H.
  assert (In (k, v) (isort pairleb (a ++ (k, v) :: b))) as Hin.
  { apply in_isort. apply in_app_iff. cbn. auto. }
  apply in_split in Hin as (p & q & E). exists p, q. intro v'.
  rewrite <- (setval_split k v v' a b H), isort_setval, E by assumption.
  apply setval_split. rewrite <- E.
  apply (Permutation_NoDup (l := map fst (a ++ (k, v) :: b))); [|assumption].
  apply Permutation_map, isort_perm.
Qed.

(** Changing the value of one distinguishing attribute to a string with another 64 bit hash
    changes the key hash (and so the content hash). *)
Theorem C22_key_noticed hasher m ud t a b k v v' x kids :
  NoDup (map fst (a ++ (k, v) :: b)) ->
  distinguishing m ud t k ->
  (hasher v mod 2 ^ 64 <> hasher v' mod 2 ^ 64)%Z ->
  attr_hash hasher m ud (Node t (a ++ (k, v) :: b) x kids)
  <> attr_hash hasher m ud (Node t (a ++ (k, v') :: b) x kids)
  /\ content_hash hasher m ud (Node t (a ++ (k, v) :: b) x kids)
     <> content_hash hasher m ud (Node t (a ++ (k, v') :: b) x kids).
Proof.
  intros N D H. destruct (sorted_split k v a b N) as (p & q & E).
  assert (forall v, is_key m ud t (k, v) = true) as Hk by (intro; now apply is_key_spec).
  assert (forall v, is_content m ud t (k, v) = false) as Hc.
  { intro w. specialize (Hk w). unfold is_key, is_content in *. cbn [fst] in *.
    apply andb_true_iff in Hk as [-> ->]. reflexivity. }
  assert (poly (key_words hasher m ud t (a ++ (k, v) :: b))
          <> poly (key_words hasher m ud t (a ++ (k, v') :: b))) as A.
  { unfold key_words. rewrite !E, !filter_app. cbn [filter]. rewrite !Hk.
    unfold flat. rewrite !flat_map_app. cbn [flat_map app fst snd]. 
    cbn [map]. rewrite !map_app. cbn [map].
    change (hasher t :: ?l ++ hasher k :: ?r) with ((hasher t :: l) ++ hasher k :: r).
    match goal with |- poly (?l ++ hasher k :: ?x1 :: ?r) <> _ =>
      change (l ++ hasher k :: x1 :: r) with (l ++ [hasher k] ++ x1 :: r) end.
    match goal with |- _ <> poly (?l ++ hasher k :: ?x1 :: ?r) =>
      change (l ++ hasher k :: x1 :: r) with (l ++ [hasher k] ++ x1 :: r) end.
    rewrite !app_assoc. now apply poly_one_changed. }
  unfold attr_hash, content_hash. rewrite !node_hashes_words. cbn [fst snd].
  split; [exact A|].
  unfold content_words. rewrite !E, !filter_app. cbn [filter]. rewrite !Hc.
  rewrite !app_assoc. apply poly_one_changed.
  rewrite !Z.mod_small by apply poly_range. exact A.
Qed.

(** Changing one line of the text, or one child to one with another content hash, changes the
    content hash. *)
Theorem C22_line_noticed hasher m ud t a before after l l' kids :
  Forall (fun s => ~ In 10%N s) (before ++ l :: after) ->
  Forall (fun s => ~ In 10%N s) (before ++ l' :: after) ->
  before ++ l :: after <> [[]] -> before ++ l' :: after <> [[]] ->
  (hasher l mod 2 ^ 64 <> hasher l' mod 2 ^ 64)%Z ->
  content_hash hasher m ud (Node t a (Some (join [10%N] (before ++ l :: after))) kids)
  <> content_hash hasher m ud (Node t a (Some (join [10%N] (before ++ l' :: after))) kids).
Proof.
  intros F F' N N' H.
  assert (forall ls, ls <> [] -> ls <> [[]] -> Forall (fun s => ~ In 10%N s) ls ->
            text_lines (Some (join [10%N] ls)) = ls) as T.
  { intros ls Hne H1 Hf. unfold text_lines.
    destruct (join [10%N] ls) as [|c s] eqn:E.
    - destruct ls as [|y [|z ls]]; try congruence.
      + cbn in E. congruence.
      + cbn in E. destruct y; discriminate.
    - rewrite <- E. now apply split_join. }
  unfold content_hash. rewrite !node_hashes_words. cbn [snd]. unfold content_words.
  rewrite !T by (try assumption; destruct before; discriminate).
  rewrite !map_app. cbn [map].
  rewrite <- !app_assoc. cbn [app]. rewrite !app_assoc. now apply poly_one_changed.
Qed.
Theorem C22_child_noticed hasher m ud t a x before after c c' :
  content_hash hasher m ud c <> content_hash hasher m ud c' ->
  content_hash hasher m ud (Node t a x (before ++ c :: after))
  <> content_hash hasher m ud (Node t a x (before ++ c' :: after)).
Proof.
  intro H. unfold content_hash at 1 2. rewrite !node_hashes_words. cbn [snd].
  unfold content_words. rewrite !map_app. cbn [map]. rewrite <- !app_assoc. cbn [app].
  apply poly_one_changed.
  rewrite !Z.mod_small by (apply (C22_64_bits hasher m ud)). exact H.
Qed.

(** The words of the text and of the attributes are not separated: an element whose text is
    the two lines k and v has the same content hash as the empty element with the non
    distinguishing attribute k="v", for every hash function. *)
Theorem C22_text_attribute_collision hasher m t k v :
  ~ In 10%N k -> ~ In 10%N v -> k <> [] ->
  ~ distinguishing m false t k ->
  content_hash hasher m false (Node t [] (Some (k ++ lit "
" ++ v)) [])
  = content_hash hasher m false (Node t [(k, v)] None []).
Proof.
  intros Hk Hv Hne D. unfold content_hash. rewrite !node_hashes_words. cbn [snd].
  unfold content_words, key_words. cbn [isort insert filter map app].
  destruct (is_key m false t (k, v)) eqn:E1; [apply is_key_spec in E1; tauto|].
  assert (is_content m false t (k, v) = true) as ->.
  { unfold is_key, is_content in *. cbn [fst andb negb orb] in *. now rewrite E1. }
  unfold text_lines. destruct (k ++ _ ++ v) as [|c s] eqn:E; [destruct k; discriminate|].
  rewrite <- E. change (lit "
" ++ v) with (10%N :: v). rewrite split_on_app, split_on_nosep by assumption.
  reflexivity.
Qed.

(** A concrete case: <zone type="x" draft="approved"><city>A</city></zone> *)
Definition ex_meta : meta := {|
  m_keys := [lit "type"; lit "alt"; lit "draft"]; m_nonkey := []; m_key := [];
  m_attord := []; m_maxats := 1; m_elord := []; m_maxels := 1; m_attvals := [];
  m_serial := []; m_blocks := [lit "identity"; lit "collation"] |}.
Definition ex_hash (s : pystr) : Z := fold_left (fun a c => a * 31 + Z.of_N c)%Z s 7%Z.
Example C22_example :
  distinguishing ex_meta true (lit "zone") (lit "type")
  /\ ~ distinguishing ex_meta true (lit "zone") (lit "draft")
  /\ ~ distinguishing ex_meta false (lit "zone") (lit "note")
  /\ (ex_hash (lit "x") mod 2 ^ 64 <> ex_hash (lit "y") mod 2 ^ 64)%Z
  /\ same_up_to_order
       (Node (lit "zone") [(lit "type", lit "x"); (lit "draft", lit "approved")] None
          [Node (lit "city") [] (Some (lit "A")) []])
       (Node (lit "zone") [(lit "draft", lit "approved"); (lit "type", lit "x")] None
          [Node (lit "city") [] (Some (lit "A")) []]).
Proof.
  split; [|split; [|split; [|split]]].
  - apply (proj1 (is_key_spec ex_meta true (lit "zone") (lit "type", []))). reflexivity.
  - intro H. apply (proj2 (is_key_spec ex_meta true (lit "zone") (lit "draft", []))) in H. discriminate.
  - intro H. apply (proj2 (is_key_spec ex_meta false (lit "zone") (lit "note", []))) in H. discriminate.
  - discriminate.
  - constructor; [constructor|repeat constructor].
Qed.
