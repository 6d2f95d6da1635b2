(** C25: changing the draft of an element that has alternates. *)
From Coq Require Import String.
From Verif Require Import Py PyFacts M_LdmlBase M_Serialize M_Normalise M_Drafts T_Drafts.
Local Open Scope list_scope.
Local Open Scope nat_scope.

(** * Specification *)

(** an element and its alternates *)
Definition alts_of (n : lnode) : list (pystr * lnode) := match lalts n with Some a => a | None => [] end.
Definition family (n : lnode) : list lnode := n :: map snd (alts_of n).
(** what makes up an element apart from its place in the family: everything but the alt
    attribute and the alternates *)
Definition content (n : lnode) :=
  (ltag n, filter (fun kv : pystr * pystr => negb (streq (fst kv) (lit "alt"))) (lattrs n), ltext n,
   lah n, lch n, lkids n).
(** every alternate is filed under its alt attribute, one for each name *)
Definition well_filed (n : lnode) : Prop :=
  NoDup (dkeys (alts_of n)) /\ (forall k x, In (k, x) (alts_of n) -> lget x (lit "alt") = Some k).
(** the grade of a draft: its place in the list of drafts, 7 for one not in the list; [ud]
    stands in for a missing attribute *)
Definition grade (ud : option pystr) (x : lnode) (g : nat) : Prop :=
  match (match lget x (lit "draft") with Some d => Some d | None => ud end) with
  | Some d => nth_error alldrafts g = Some d \/ (~ In d alldrafts /\ g = 7)
  | None => g = 7
  end.

(** * Proof *)
Lemma rating_grade d g :
  (nth_error alldrafts g = Some d \/ (~ In d alldrafts /\ g = 7)) <-> rating (Some d) maxrating = g.
Proof.
  unfold rating. destruct (dget streq draftratings d) as [k|] eqn:Ek.
  - apply rating_get in Ek. split.
    + intros [H|[H _]]; [|apply nth_error_In in Ek; contradiction].
      pose proof alldrafts_NoDup as ND. rewrite NoDup_nth_error in ND.
      apply ND; [apply nth_error_Some|]; congruence.
    + intros ->. now left.
  - apply enum_from_none in Ek. split.
    + intros [H|[_ ->]]; [apply nth_error_In in H; contradiction|reflexivity].
    + intros <-. right. auto.
Qed.
Lemma grade_spec ud x g : grade ud x g <-> alt_rating ud x = g.
Proof.
  unfold grade, alt_rating. destruct (lget x (lit "draft")) as [d|]; [apply rating_grade|].
  destruct ud; [apply rating_grade|]. cbn. intuition.
Qed.
Lemma rating_max k : rating k maxrating <= maxrating.
Proof.
  destruct k as [d|]; [|cbn; lia]. unfold rating. destruct (dget streq draftratings d) as [n|] eqn:E; [|lia].
  apply rating_get in E. assert (n < List.length alldrafts) by (apply nth_error_Some; congruence).
  unfold maxrating. cbn in *. lia.
Qed.

Lemma dget_dset_attr (d : list (pystr * pystr)) k k2 v : k2 <> k -> dget streq (dset streq d k v) k2 = dget streq d k2.
Proof. apply dget_dset_other, streq_spec. Qed.
Lemma dget_ddel_other {V} (d : list (pystr * V)) k k2 : k2 <> k -> dget streq (ddel streq d k) k2 = dget streq d k2.
Proof.
  intro N. induction d as [|[k' v] d IH]; cbn; [reflexivity|].
  destruct (streq_spec k k') as [->|N1].
  - destruct (streq_spec k2 k'); [congruence|reflexivity].
  - cbn. destruct (streq_spec k2 k'); [reflexivity|assumption].
Qed.
Lemma filter_alt_dset d v :
  filter (fun kv : pystr * pystr => negb (streq (fst kv) (lit "alt"))) (dset streq d (lit "alt") v)
  = filter (fun kv : pystr * pystr => negb (streq (fst kv) (lit "alt"))) d.
Proof.
  induction d as [|[k x] d IH]; cbn [dset filter fst].
  - now rewrite streq_refl.
  - destruct (streq (lit "alt") k) eqn:E; cbn [filter fst].
    + rewrite (streq_sym k), E. reflexivity.
    + rewrite IH. reflexivity.
Qed.
Lemma filter_alt_ddel d :
  filter (fun kv : pystr * pystr => negb (streq (fst kv) (lit "alt"))) (ddel streq d (lit "alt"))
  = filter (fun kv : pystr * pystr => negb (streq (fst kv) (lit "alt"))) d.
Proof.
  induction d as [|[k x] d IH]; cbn [ddel filter fst]; [reflexivity|].
  destruct (streq (lit "alt") k) eqn:E; cbn [filter fst].
  - rewrite (streq_sym k), E. reflexivity.
  - now rewrite IH.
Qed.

Lemma find_loop_spec ud alts : forall res th r t, find_loop ud alts res th = (r, t) ->
  t <= th /\ (forall k x, In (k, x) alts -> t <= alt_rating ud x) /\
  ((r = res /\ t = th) \/ (exists k x, r = Some k /\ In (k, x) alts /\ alt_rating ud x = t /\ t < th)).
Proof.
  induction alts as [|[k v] alts IH]; intros res th r t; cbn [find_loop].
  - intro E. injection E as -> ->. split; [lia|]. split; [intros ? ? []|]. auto.
  - destruct (Nat.ltb_spec (alt_rating ud v) th) as [L|L]; intro E; destruct (IH _ _ _ _ E) as (H1 & H2 & H3).
    + split; [lia|]. split.
      * intros k' x [E'|H]; [injection E' as -> ->; lia|eauto].
      * right. destruct H3 as [[-> ->]|(k' & x & H3 & H4 & H5 & H6)].
        -- exists k, v. cbn. auto.
        -- exists k', x. cbn. repeat split; auto. lia.
    + split; [lia|]. split.
      * intros k' x [E'|H]; [injection E' as -> ->; lia|eauto].
      * destruct H3 as [H3|(k' & x & H3 & H4 & H5 & H6)]; [auto|]. right. exists k', x. cbn. auto.
Qed.

(** what [find_best] finds *)
Lemma find_best_some ud n th alt b : NoDup (dkeys (alts_of n)) -> find_best ud n th alt = Some b ->
  exists x, dget streq (alts_of n) b = Some x /\ lalts n = Some (alts_of n) /\
    alt_rating ud x <= th /\ (forall k y, In (k, y) (alts_of n) -> alt_rating ud x <= alt_rating ud y).
Proof.
  unfold find_best, alts_of. destruct (lalts n) as [alts|]; [|discriminate]. intro ND.
  destruct (find_loop ud alts None th) as [r t] eqn:E. apply find_loop_spec in E as (H1 & H2 & H3).
  assert (forall x, r = Some b -> dget streq alts b = Some x -> alt_rating ud x = t) as Hr.
  { intros x -> Hx. destruct H3 as [[H3 _]|(k & y & H3 & H4 & H5 & H6)]; [discriminate|].
    injection H3 as <-. apply (dget_NoDup_In _ streq_spec) in H4; [|assumption]. congruence. }
  assert (r = Some b -> exists x, dget streq alts b = Some x) as Hr2.
  { intros ->. destruct H3 as [[H3 _]|(k & y & H3 & H4 & H5 & H6)]; [discriminate|].
    injection H3 as <-. exists y. now apply (dget_NoDup_In _ streq_spec). }
  destruct (dget streq alts alt) as [x|] eqn:Ex.
  - destruct (Nat.eqb_spec t (rating (lget x (lit "draft")) maxrating)) as [Et|Nt].
    + intro Eb. injection Eb as <-. exists x. split; [assumption|]. split; [reflexivity|].
      assert (alt_rating ud x <= t) as L.
      { unfold alt_rating. destruct (lget x (lit "draft")) as [d|] eqn:Ed; [lia|].
        cbn in Et. rewrite Et. apply rating_max. }
      split; [lia|]. intros k y Hy. specialize (H2 k y Hy). lia.
    + intro Eb. destruct (Hr2 Eb) as [y Hy]. exists y. specialize (Hr y Eb Hy).
      split; [assumption|]. split; [reflexivity|]. split; [lia|]. intros k z Hz. specialize (H2 k z Hz). lia.
  - intro Eb. destruct (Hr2 Eb) as [y Hy]. exists y. specialize (Hr y Eb Hy).
    split; [assumption|]. split; [reflexivity|]. split; [lia|]. intros k z Hz. specialize (H2 k z Hz). lia.
Qed.
Lemma find_best_none ud n th alt : find_best ud n th alt = None ->
  forall k y, In (k, y) (alts_of n) -> th <= alt_rating ud y.
Proof.
  unfold find_best, alts_of. destruct (lalts n) as [alts|]; [|intros _ ? ? []].
  destruct (find_loop ud alts None th) as [r t] eqn:E. apply find_loop_spec in E as (H1 & H2 & H3).
  intro Eb. assert (r = None) as ->.
  { destruct (dget streq alts alt) as [x|]; [|assumption].
    destruct (Nat.eqb _ _); [discriminate|assumption]. }
  destruct H3 as [[_ ->]|(k & y & H3 & _)]; [|discriminate]. exact H2.
Qed.

Lemma set_attrs_fields c a :
  ltag (set_attrs c a) = ltag c /\ lattrs (set_attrs c a) = a /\ ltext (set_attrs c a) = ltext c /\
  lah (set_attrs c a) = lah c /\ lch (set_attrs c a) = lch c /\ lalts (set_attrs c a) = lalts c /\
  lkids (set_attrs c a) = lkids c.
Proof. destruct c. cbn. auto 10. Qed.

(** the parts of a promoted element *)
Lemma promote_spec old new alt a : lget new (lit "alt") = Some a ->
  let r := promote old new alt in
  content r = content new /\ lget r (lit "draft") = lget new (lit "draft") /\
  exists old', content old' = content old /\ lget old' (lit "draft") = lget old (lit "draft") /\
    lget old' (lit "alt") = Some alt /\
    lalts r = Some (dset streq (ddel streq (alts_of old) a) alt old').
Proof.
  intros Ha. unfold promote. rewrite Ha. cbv zeta.
  set (o1 := set_alts old (lalts new)).
  set (o2 := set_attrs o1 (dset streq (lattrs o1) (lit "alt") alt)).
  destruct (set_alts_fields old (lalts new)) as (A1 & A2 & A3 & A4 & A5 & A6 & A7). fold o1 in A1, A2, A3, A4, A5, A6, A7.
  destruct (set_attrs_fields o1 (dset streq (lattrs o1) (lit "alt") alt)) as (B1 & B2 & B3 & B4 & B5 & B6 & B7).
  fold o2 in B1, B2, B3, B4, B5, B6, B7.
  set (n1 := set_attrs new (ddel streq (lattrs new) (lit "alt"))).
  destruct (set_attrs_fields new (ddel streq (lattrs new) (lit "alt"))) as (C1 & C2 & C3 & C4 & C5 & C6 & C7).
  fold n1 in C1, C2, C3, C4, C5, C6, C7.
  fold (alts_of old).
  assert ((if dmem streq (alts_of old) a then ddel streq (alts_of old) a else alts_of old)
          = ddel streq (alts_of old) a) as Ed.
  { destruct (dmem streq (alts_of old) a) eqn:E; [reflexivity|].
    unfold dmem in E. destruct (dget streq (alts_of old) a) eqn:E2; [discriminate|].
    clear E. induction (alts_of old) as [|[k v] l IH]; cbn in *; [reflexivity|].
    destruct (streq a k); [discriminate|]. now rewrite <- IH. }
  rewrite Ed.
  set (d := dset streq (ddel streq (alts_of old) a) alt o2).
  destruct (set_alts_fields n1 (Some d)) as (D1 & D2 & D3 & D4 & D5 & D6 & D7).
  split; [|split].
  - unfold content. rewrite D1, D2, D3, D4, D5, D7, C1, C2, C3, C4, C5, C7. now rewrite filter_alt_ddel.
  - unfold lget. rewrite D2, C2. apply dget_ddel_other. intro E. apply streq_true in E. vm_compute in E. discriminate.
  - exists o2. split; [|split; [|split]].
    + unfold content. rewrite B1, B2, B3, B4, B5, B7, A1, A2, A3, A4, A5, A7. now rewrite filter_alt_dset.
    + unfold lget. rewrite B2, A2. apply dget_dset_attr. intro E. apply streq_true in E. vm_compute in E. discriminate.
    + unfold lget. rewrite B2. apply dget_dset_same, streq_spec.
    + exact D6.
Qed.

Lemma ddel_perm (d : list (pystr * lnode)) k x : dget streq d k = Some x ->
  Permutation (map snd d) (x :: map snd (ddel streq d k)).
Proof.
  induction d as [|[k' v] d IH]; cbn; [discriminate|]. destruct (streq_spec k k') as [->|N].
  - intro E. injection E as ->. reflexivity.
  - intro E. specialize (IH E). cbn. rewrite IH. apply perm_swap.
Qed.
Lemma dset_fresh_app (d : list (pystr * lnode)) k x : dget streq d k = None -> dset streq d k x = d ++ [(k, x)].
Proof.
  induction d as [|[k' v] d IH]; cbn; [reflexivity|]. destruct (streq k k'); [discriminate|].
  intro E. now rewrite IH.
Qed.

(** the element with its draft set, nothing moved *)
Definition with_draft (n : lnode) (draft : pystr) : lnode :=
  set_attrs n (dset streq (lattrs n) (lit "draft") draft).

Lemma with_draft_alts n d : alts_of (with_draft n d) = alts_of n /\ lalts (with_draft n d) = lalts n.
Proof. destruct n. cbn. auto. Qed.
Lemma with_draft_rating ud n d : alt_rating ud (with_draft n d) = rating (Some d) maxrating.
Proof.
  unfold alt_rating. unfold lget, with_draft.
  destruct (set_attrs_fields n (dset streq (lattrs n) (lit "draft") d)) as (_ & -> & _).
  now rewrite (dget_dset_same _ streq_spec).
Qed.
Lemma find_best_with_draft ud n d th alt : find_best ud (with_draft n d) th alt = find_best ud n th alt.
Proof. unfold find_best. destruct (with_draft_alts n d) as [_ ->]. reflexivity. Qed.
Lemma change_draft_eq ud uid n d alt :
  change_draft ud uid n d alt =
  match find_best ud n (rating (Some d) maxrating) (alt_name uid alt) with
  | None => with_draft n d
  | Some b => match dget streq (alts_of n) b with
              | None => with_draft n d
              | Some new => promote (with_draft n d) new (alt_name uid alt)
              end
  end.
Proof.
  unfold change_draft. fold (with_draft n d). destruct (find_best _ _ _ _) as [b|]; [|reflexivity].
  destruct (with_draft_alts n d) as [_ ->]. unfold alts_of. destruct (lalts n); reflexivity.
Qed.

(** ** C25, first half: afterwards the primary has the best grade of the family. *)
Theorem C25_primary_best : forall ud uid n draft alt, well_filed n ->
  let r := change_draft ud uid n draft alt in
  forall x g h, In x (map snd (alts_of r)) -> grade ud r g -> grade ud x h -> g <= h.
Proof.
  intros ud uid n draft alt [ND WF] r x g h Hx Hg Hh. subst r.
  apply grade_spec in Hg, Hh. subst g h. revert Hx. rewrite change_draft_eq.
  destruct (find_best ud n (rating (Some draft) maxrating) (alt_name uid alt)) as [b|] eqn:Eb.
  - destruct (find_best_some _ _ _ _ _ ND Eb) as (new & Hnew & Hal & L1 & L2). rewrite Hnew.
    assert (lget new (lit "alt") = Some b) as Ha by (apply WF, (dget_In _ streq_spec), Hnew).
    destruct (promote_spec (with_draft n draft) new (alt_name uid alt) b Ha)
      as (_ & Hd & old' & Hc & Hd' & _ & Hr).
    assert (alt_rating ud (promote (with_draft n draft) new (alt_name uid alt)) = alt_rating ud new) as ->.
    { unfold alt_rating. now rewrite Hd. }
    assert (alt_rating ud old' = rating (Some draft) maxrating) as Eo.
    { rewrite <- (with_draft_rating ud n draft). unfold alt_rating. now rewrite Hd'. }
    unfold alts_of at 1. rewrite Hr. intro Hx. apply in_map_iff in Hx as ([k y] & <- & Hy).
    cbn [snd]. destruct (with_draft_alts n draft) as [Ea _]. rewrite Ea in Hy.
    assert (In (k, y) (ddel streq (alts_of n) b) \/ y = old') as [Hy'| ->].
    { clear -Hy. induction (ddel streq (alts_of n) b) as [|[k' v] l IH]; cbn in Hy.
      - destruct Hy as [E|[]]. injection E as _ <-. auto.
      - destruct (streq _ k'); destruct Hy as [E|Hy].
        + injection E as _ <-. auto.
        + left. now right.
        + left. now left.
        + destruct (IH Hy); [left; now right|auto]. }
    + apply ddel_sub in Hy'. eauto.
    + lia.
  - intro Hx. destruct (with_draft_alts n draft) as [Ea _]. rewrite Ea in Hx.
    rewrite with_draft_rating. apply in_map_iff in Hx as ([k y] & <- & Hy).
    eapply find_best_none; eassumption.
Qed.

(** ** C25, second half: nothing is lost if the name under which the old primary is to be
    filed is not in use. *)
Theorem C25_nothing_lost : forall ud uid n draft alt, well_filed n ->
  ~ In (alt_name uid alt) (dkeys (alts_of n)) ->
  let r := change_draft ud uid n draft alt in
  Permutation (map content (family (with_draft n draft))) (map content (family r)) /\ well_filed r.
Proof.
  intros ud uid n draft alt [ND WF] Fr r. subst r. rewrite change_draft_eq.
  destruct (with_draft_alts n draft) as [Ea Ea'].
  assert (well_filed (with_draft n draft)) as WF0 by (split; rewrite Ea; assumption).
  destruct (find_best ud n (rating (Some draft) maxrating) (alt_name uid alt)) as [b|] eqn:Eb;
    [|split; [reflexivity|assumption]].
  destruct (find_best_some _ _ _ _ _ ND Eb) as (new & Hnew & Hal & L1 & L2). rewrite Hnew.
  assert (lget new (lit "alt") = Some b) as Ha by (apply WF, (dget_In _ streq_spec), Hnew).
  destruct (promote_spec (with_draft n draft) new (alt_name uid alt) b Ha)
    as (Hc1 & Hd & old' & Hc & Hd' & Hal' & Hr).
  rewrite Ea in Hr.
  assert (dget streq (ddel streq (alts_of n) b) (alt_name uid alt) = None) as Fr'.
  { apply (dget_None _ streq_spec). intro H. apply Fr. eapply dkeys_ddel_sub. exact H. }
  assert (alts_of (promote (with_draft n draft) new (alt_name uid alt))
          = ddel streq (alts_of n) b ++ [(alt_name uid alt, old')]) as Hal2.
  { unfold alts_of at 1. rewrite Hr. now apply dset_fresh_app. }
  split.
  - unfold family. cbn [map]. rewrite Hal2, Ea, Hc1, !map_app. cbn [map snd]. rewrite Hc.
    rewrite (Permutation_map content (ddel_perm _ _ _ Hnew)). cbn [map].
    rewrite perm_swap. apply perm_skip. apply Permutation_cons_append.
  - unfold well_filed. rewrite Hal2. unfold dkeys. rewrite map_app. cbn [map fst]. split.
    + eapply Permutation_NoDup; [apply Permutation_cons_append|]. constructor.
      * apply (dget_None _ streq_spec). exact Fr'.
      * apply ddel_NoDup; exact ND.
    + intros k x Hx. apply in_app_iff in Hx as [Hx|[E|[]]].
      * apply WF. eapply ddel_sub. exact Hx.
      * injection E as <- <-. exact Hal'.
Qed.

(** Nor if the alternate of that name has a draft and none of the others is better: then it is
    the one that changes places. *)
Theorem C25_nothing_lost_same_name : forall ud uid n draft alt y, well_filed n ->
  In (alt_name uid alt, y) (alts_of n) -> lget y (lit "draft") <> None ->
  (forall k x g h, In (k, x) (alts_of n) -> grade ud y g -> grade ud x h -> g <= h) ->
  let r := change_draft ud uid n draft alt in
  Permutation (map content (family (with_draft n draft))) (map content (family r)) /\ well_filed r.
Proof.
  intros ud uid n draft alt y [ND WF] Hy Dy Best r. subst r. rewrite change_draft_eq.
  destruct (with_draft_alts n draft) as [Ea Ea'].
  assert (well_filed (with_draft n draft)) as WF0 by (split; rewrite Ea; assumption).
  set (name := alt_name uid alt) in *.
  pose proof (dget_NoDup_In _ streq_spec _ _ _ ND Hy) as Ey.
  assert (forall k x, In (k, x) (alts_of n) -> alt_rating ud y <= alt_rating ud x) as Best'.
  { intros k x Hx. eapply Best; [exact Hx| |]; apply grade_spec; reflexivity. }
  assert (rating (lget y (lit "draft")) maxrating = alt_rating ud y) as Ry.
  { unfold alt_rating. destruct (lget y (lit "draft")); [reflexivity|congruence]. }
  assert (find_best ud n (rating (Some draft) maxrating) name = None \/
          find_best ud n (rating (Some draft) maxrating) name = Some name) as [Eb|Eb].
  { unfold find_best. unfold alts_of in *. destruct (lalts n) as [alts|]; [|now left].
    destruct (find_loop ud alts None (rating (Some draft) maxrating)) as [r t] eqn:E.
    apply find_loop_spec in E as (H1 & H2 & H3). rewrite Ey, Ry.
    destruct (Nat.eqb_spec t (alt_rating ud y)); [auto|].
    destruct H3 as [[-> _]|(k & x & _ & Hx & Ex & _)]; [auto|].
    specialize (H2 _ _ Hy). specialize (Best' _ _ Hx). lia. }
  { rewrite Eb. split; [reflexivity|assumption]. }
  rewrite Eb, Ey.
  assert (lget y (lit "alt") = Some name) as Ha by (apply WF, Hy).
  destruct (promote_spec (with_draft n draft) y name name Ha)
    as (Hc1 & Hd & old' & Hc & Hd' & Hal' & Hr).
  rewrite Ea in Hr.
  assert (dget streq (ddel streq (alts_of n) name) name = None) as Fr'.
  { rewrite (dget_ddel _ streq_spec) by assumption. now rewrite streq_refl. }
  assert (alts_of (promote (with_draft n draft) y name)
          = ddel streq (alts_of n) name ++ [(name, old')]) as Hal2.
  { unfold alts_of at 1. rewrite Hr. now apply dset_fresh_app. }
  split.
  - unfold family. cbn [map]. rewrite Hal2, Ea, Hc1, !map_app. cbn [map snd]. rewrite Hc.
    rewrite (Permutation_map content (ddel_perm _ _ _ Ey)). cbn [map].
    rewrite perm_swap. apply perm_skip. apply Permutation_cons_append.
  - unfold well_filed. rewrite Hal2. unfold dkeys. rewrite map_app. cbn [map fst]. split.
    + eapply Permutation_NoDup; [apply Permutation_cons_append|]. constructor.
      * apply (dget_None _ streq_spec). exact Fr'.
      * apply ddel_NoDup; exact ND.
    + intros k x Hx. apply in_app_iff in Hx as [Hx|[E|[]]].
      * apply WF. eapply ddel_sub. exact Hx.
      * injection E as <- <-. exact Hal'.
Qed.

(** Otherwise it is false: if the name is taken and another alternate is better than that one
    and than the new draft, one alternate is overwritten. *)
Theorem C25_nothing_lost_refuted : forall ud uid n draft alt y k x, well_filed n ->
  In (alt_name uid alt, y) (alts_of n) -> In (k, x) (alts_of n) ->
  alt_rating ud x < alt_rating ud y -> lget y (lit "draft") <> None ->
  alt_rating ud x < rating (Some draft) maxrating ->
  let r := change_draft ud uid n draft alt in
  List.length (family r) = List.length (family (with_draft n draft)) - 1.
Proof.
  intros ud uid n draft alt y k x [ND WF] Hy Hx L1 Dy L2 r. subst r. rewrite change_draft_eq.
  destruct (with_draft_alts n draft) as [Ea Ea']. set (name := alt_name uid alt) in *.
  pose proof (dget_NoDup_In _ streq_spec _ _ _ ND Hy) as Ey.
  destruct (find_best ud n (rating (Some draft) maxrating) name) as [b|] eqn:Eb.
  2:{ pose proof (find_best_none _ _ _ _ Eb _ _ Hx). lia. }
  destruct (find_best_some _ _ _ _ _ ND Eb) as (new & Hnew & Hal & L3 & L4). rewrite Hnew.
  assert (lget new (lit "alt") = Some b) as Ha by (apply WF, (dget_In _ streq_spec), Hnew).
  assert (b <> name) as Nb.
  { intros ->. rewrite Ey in Hnew. injection Hnew as <-. specialize (L4 _ _ Hx). lia. }
  destruct (promote_spec (with_draft n draft) new name b Ha) as (_ & _ & old' & _ & _ & _ & Hr).
  rewrite Ea in Hr. unfold family. cbn [List.length]. unfold alts_of at 1. rewrite Hr, Ea, !map_length.
  assert (List.length (dset streq (ddel streq (alts_of n) b) name old') = List.length (ddel streq (alts_of n) b)) as ->.
  { rewrite <- (map_length fst). change (map fst (dset streq (ddel streq (alts_of n) b) name old'))
      with (dkeys (dset streq (ddel streq (alts_of n) b) name old')).
    rewrite (dkeys_dset _ streq_spec). unfold dmem. rewrite dget_ddel_other by congruence. rewrite Ey.
    apply map_length. }
  pose proof (Permutation_length (ddel_perm _ _ _ Hnew)) as PL. cbn [List.length] in PL.
  rewrite !map_length in PL. lia.
Qed.

(** Cases. *)
Definition ex_family : lnode :=
  set_alts (mk "month" "approved" "" "Jan" 1)
    (Some [(lit "proposed", mk "month" "contributed" "proposed" "jan." 1);
           (lit "x", mk "month" "provisional" "x" "Janv" 1)]).
Example C25_example :
  well_filed ex_family /\ ~ In (alt_name None (Some (lit "old"))) (dkeys (alts_of ex_family)) /\
  ltext (change_draft None None ex_family (lit "suspect") (Some (lit "old"))) = Some (lit "jan.") /\
  dkeys (alts_of (change_draft None None ex_family (lit "suspect") (Some (lit "old")))) = [lit "x"; lit "old"].
Proof.
  repeat split; try reflexivity.
  - cbn [alts_of ex_family mk set_alts lalts dkeys map fst].
    constructor; [intros [H|[]]; apply streq_true in H; vm_compute in H; discriminate|].
    constructor; [intros []|constructor].
  - intros k x H. cbn [alts_of ex_family mk set_alts lalts In] in H.
    destruct H as [E|[E|[]]]; injection E as <- <-; vm_compute; reflexivity.
  - intro H. apply (dget_Some_iff _ streq_spec) in H as [v H]. vm_compute in H. discriminate.
Qed.
(** change_draft(node, 'suspect', alt='x'): the alternate called x is overwritten. *)
Example C25_lost_example :
  map ltext (family ex_family) = [Some (lit "Jan"); Some (lit "jan."); Some (lit "Janv")] /\
  map ltext (family (change_draft None None ex_family (lit "suspect") (Some (lit "x"))))
  = [Some (lit "jan."); Some (lit "Jan")].
Proof. split; vm_compute; reflexivity. Qed.

(** Every child of a loaded element is well filed. *)
Lemma load_no_alts ws lower hasher m dd ud n : lalts (load ws lower hasher m dd ud n) = None.
Proof. destruct n. cbn [load]. destruct (calc_hashes _ _ _ _ _ _ _). reflexivity. Qed.
Theorem C25_loaded_well_filed : forall ws lower hasher m dd ud n o, In dd alldrafts ->
  In o (lkids (load ws lower hasher m dd ud n)) -> well_filed o.
Proof.
  intros ws lower hasher m dd ud [t a x k] o D. cbn [load].
  destruct (calc_hashes _ _ _ _ _ _ _) as [h c]. cbn [lkids].
  set (ks := isort _ _).
  assert (forall y, In y ks -> lalts y = None) as N.
  { intros y Hy. apply (Permutation_in _ (Permutation_sym (isort_perm _ _))) in Hy.
    apply in_map_iff in Hy as (z & <- & _). apply load_no_alts. }
  destruct ud; intro Ho.
  - destruct (C23_packing m dd ks D) as (keep & prim & [_ _ _ P]).
    apply In_nth_error in Ho as [i Hi]. destruct (Forall2_nth_r _ _ _ _ _ _ _ P Hi) as (j & _ & c' & Hc & H).
    destruct H as [[_ ->]|[_ (al & -> & ND & Hal)]].
    + unfold well_filed, alts_of. rewrite (N c') by (eapply nth_error_In; eassumption).
      split; [constructor|intros ? ? []].
    + unfold well_filed, alts_of. destruct (set_alts_fields c' (Some al)) as (_ & _ & _ & _ & _ & -> & _).
      split; [assumption|]. intros a' y Hy. apply Hal in Hy as (j' & _ & _ & E & _). exact E.
  - unfold well_filed, alts_of. rewrite (N o Ho). split; [constructor|intros ? ? []].
Qed.
