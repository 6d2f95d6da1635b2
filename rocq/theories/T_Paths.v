(** C26 and C27: finding and creating elements by path. *)
From Coq Require Import String.
From Verif Require Import Py PyFacts M_LdmlBase M_Collation M_Serialize M_Normalise M_Drafts M_Paths.
From Verif Require Import T_Drafts.
Local Open Scope list_scope.
Local Open Scope nat_scope.

(** * Specification *)

(** [attr_is c k v]: attribute [k] of [c] has the value [v]; a missing attribute counts as empty *)
Definition attr_is (c : lnode) (k v : pystr) : Prop :=
  lget c k = Some v \/ (lget c k = None /\ v = []).

(** [walk n steps w]: following the steps of a path from [n], one can take the children with
    the indices [w] *)
Inductive walk : lnode -> list pathstep -> list nat -> Prop :=
| walk_end n : walk n [] []
| walk_dot n attrs steps w : walk n steps w -> walk n ((lit ".", attrs) :: steps) w
| walk_step n tag attrs steps i c w :
    tag <> lit "." -> nth_error (lkids n) i = Some c -> ltag c = tag ->
    (forall k v, In (k, v) attrs -> attr_is c k v) ->
    walk c steps w -> walk n ((tag, attrs) :: steps) (i :: w).

(** document order of places at the same depth *)
Inductive before_in_doc : list nat -> list nat -> Prop :=
| before_here i j w w' : i < j -> before_in_doc (i :: w) (j :: w')
| before_below i w w' : before_in_doc w w' -> before_in_doc (i :: w) (i :: w').

(** the place reached from [base] by way of children *)
Definition below (base : place_in_doc) (w : list nat) : place_in_doc := base ++ map K w.

(** * Finding *)
Lemma step_match_spec st c :
  step_match st c = true <-> ltag c = fst st /\ forall k v, In (k, v) (snd st) -> attr_is c k v.
Proof.
  unfold step_match. rewrite andb_true_iff, streq_true, forallb_forall.
  split; intros [H1 H2]; (split; [exact H1|]).
  - intros k v H. specialize (H2 (k, v) H). cbn in H2. apply streq_true in H2. unfold attr_is.
    destruct (lget c k); [left|right]; subst; auto.
  - intros [k v] H. specialize (H2 k v H). cbn. apply streq_true. destruct H2 as [->|[-> ->]]; reflexivity.
Qed.

Fixpoint walks (n : lnode) (steps : list pathstep) : list (list nat) :=
  match steps with
  | [] => [[]]
  | st :: steps' =>
      if streq (fst st) (lit ".") then walks n steps'
      else flat_map (fun ic : nat * lnode => map (cons (fst ic)) (walks (snd ic) steps'))
             (filter (fun ic : nat * lnode => step_match st (snd ic))
                (combine (seq 0 (List.length (lkids n))) (lkids n)))
  end.

Lemma walks_spec steps : forall n w, In w (walks n steps) <-> walk n steps w.
Proof.
  induction steps as [|[tag attrs] steps IH]; intros n w; cbn [walks fst].
  - split; [intros [<-|[]]; constructor|intro H; inversion H; now left].
  - destruct (streq_spec tag (lit ".")) as [->|Nd].
    + rewrite IH. split; [apply walk_dot|]. intro H. inversion H; subst; [assumption|congruence].
    + rewrite in_flat_map. split.
      * intros ([i c] & Hin & Hw). apply filter_In in Hin as [Hin Hm]. apply in_items in Hin.
        cbn in Hm, Hw. apply in_map_iff in Hw as (w' & <- & Hw). apply IH in Hw.
        apply step_match_spec in Hm as [Ht Ha]. econstructor; eassumption.
      * intro H. inversion H as [|? ? ? ? ? E|? ? ? ? i c w' _ Hi Ht Ha Hw]; subst; [congruence|].
        exists (i, c). split.
        -- apply filter_In. split; [now apply in_items|]. apply step_match_spec. auto.
        -- cbn. apply in_map. now apply IH.
Qed.

Lemma walks_sorted steps : forall n, StronglySorted before_in_doc (walks n steps).
Proof.
  induction steps as [|[tag attrs] steps IH]; intro n; cbn [walks fst].
  - repeat constructor.
  - destruct (streq tag (lit ".")); [apply IH|].
    pose proof (filter_sorted _ _ (fun ic : nat * lnode => step_match (tag, attrs) (snd ic)) _ (items_sorted (lkids n) 0)) as S.
    induction S as [|[i c] l S IHS F]; cbn [flat_map]; [constructor|].
    cbn [fst snd]. pose proof (IH c) as Sc. induction Sc as [|w ws Sc IHc Fc]; cbn [map app]; [assumption|].
    constructor; [assumption|]. apply Forall_app. split.
    + rewrite Forall_map. eapply Forall_impl; [|exact Fc]. intros w' H. now constructor.
    + apply Forall_forall. intros w' H. apply in_flat_map in H as ([j d] & Hj & Hw).
      cbn in Hw. apply in_map_iff in Hw as (u & <- & _). rewrite Forall_forall in F.
      specialize (F _ Hj). cbn in F. now constructor.
Qed.

Definition from_place (root : lnode) (steps : list pathstep) (p : place_in_doc) : list place_in_doc :=
  match at_place root p with Some n => map (below p) (walks n steps) | None => [] end.

Lemma at_place_app n p q : at_place n (p ++ q)
  = match at_place n p with Some x => at_place x q | None => None end.
Proof.
  revert n. induction p as [|[i|k] p IH]; intro n; cbn; [reflexivity| |].
  - destruct (nth_error (lkids n) i); [apply IH|reflexivity].
  - destruct (lalts n) as [alts|]; [|reflexivity]. destruct (dget streq alts k); [apply IH|reflexivity].
Qed.
Lemma below_app p i w : below (p ++ [K i]) w = below p (i :: w).
Proof. unfold below. rewrite <- app_assoc. reflexivity. Qed.

Lemma from_place_step root st steps p : streq (fst st) (lit ".") = false ->
  from_place root (st :: steps) p = flat_map (from_place root steps) (matching_kids root st p).
Proof.
  intro Nd. unfold from_place, matching_kids. destruct (at_place root p) as [n|] eqn:E; [|reflexivity].
  cbn [walks]. rewrite Nd.
  assert (forall l, (forall i c, In (i, c) l -> nth_error (lkids n) i = Some c) ->
    map (below p) (flat_map (fun ic : nat * lnode => map (cons (fst ic)) (walks (snd ic) steps)) l)
    = flat_map (from_place root steps) (map (fun ic : nat * lnode => p ++ [K (fst ic)]) l)) as H.
  { induction l as [|[i c] l IH]; intro Hl; [reflexivity|]. cbn [flat_map map fst snd].
    rewrite map_app, IH by (intros; apply Hl; now right). f_equal.
    unfold from_place. rewrite at_place_app, E. cbn [at_place].
    rewrite (Hl i c (or_introl eq_refl)). rewrite map_map. apply map_ext.
    intro w. symmetry. apply below_app. }
  apply H. intros i c Hic. apply filter_In in Hic as [Hic _]. now apply in_items.
Qed.

Lemma flat_map_flat_map (X Y Z : Type) (f : Y -> list Z) (g : X -> list Y) l :
  flat_map f (flat_map g l) = flat_map (fun x => flat_map f (g x)) l.
Proof. induction l as [|x l IH]; cbn; [reflexivity|]. now rewrite flat_map_app, IH. Qed.
Lemma flat_map_ext_in' (X Y : Type) (f g : X -> list Y) l :
  (forall x, In x l -> f x = g x) -> flat_map f l = flat_map g l.
Proof. induction l as [|x l IH]; cbn; intro H; [reflexivity|]. rewrite H, IH by auto. reflexivity. Qed.

Lemma flat_map_id_places root curr : Forall (fun p => at_place root p <> None) curr ->
  flat_map (from_place root []) curr = curr.
Proof.
  induction 1 as [|p l Hp F IH]; [reflexivity|]. cbn [flat_map]. rewrite IH. unfold from_place.
  destruct (at_place root p); [|congruence]. cbn. unfold below. now rewrite app_nil_r.
Qed.
Lemma matching_kids_valid root st p q : In q (matching_kids root st p) ->
  exists n i c, at_place root p = Some n /\ nth_error (lkids n) i = Some c /\
    step_match st c = true /\ q = p ++ [K i] /\ at_place root q = Some c.
Proof.
  unfold matching_kids. destruct (at_place root p) as [n|] eqn:E; [|intros []].
  intro H. apply in_map_iff in H as ([i c] & <- & H). apply filter_In in H as [H Hm].
  apply in_items in H. exists n, i, c. cbn [fst snd] in *. repeat split; auto.
  rewrite at_place_app, E. cbn. now rewrite H.
Qed.
Lemma matching_kids_all root st curr :
  Forall (fun p => at_place root p <> None) (flat_map (matching_kids root st) curr).
Proof.
  apply Forall_forall. intros q H. apply in_flat_map in H as (p & _ & H).
  apply matching_kids_valid in H as (n & i & c & _ & _ & _ & _ & E). congruence.
Qed.

Section Theorems.
  Variable ws : N -> bool.
  Variable hasher : pystr -> Z.
  Variable m : meta.
  Variable dd : pystr.
  Variable useDrafts : bool.
  Variable ud uid : option pystr.
  Variable ns : list (pystr * pystr).
  Notation unify := (unify hasher m dd useDrafts ud uid ns).
  Notation ensure_path := (ensure_path ws hasher m dd useDrafts ud uid ns).
  Notation findall := (findall ws hasher m dd useDrafts ud uid ns).
  Notation find := (find ws hasher m dd useDrafts ud uid ns).
  Notation read_path := (read_path ws ns).

  Lemma unify_find text draft alt steps : forall root curr parent,
    Forall (fun p => at_place root p <> None) curr ->
    unify false text draft alt None steps root curr parent
    = Ok (root, flat_map (from_place root steps) curr).
  Proof.
    induction steps as [|st steps IH]; intros root curr parent V; cbn [M_Paths.unify].
    - now rewrite flat_map_id_places.
    - set (new := if streq (fst st) (lit ".") then curr else flat_map (matching_kids root st) curr).
      assert (Forall (fun p => at_place root p <> None) new) as Vn.
      { subst new. destruct (streq (fst st) (lit ".")); [assumption|apply matching_kids_all]. }
      assert (flat_map (from_place root (st :: steps)) curr = flat_map (from_place root steps) new) as E.
      { subst new. destruct (streq (fst st) (lit ".")) eqn:Ed.
        - apply flat_map_ext_in'. intros p _. unfold from_place. cbn [walks]. now rewrite Ed.
        - rewrite flat_map_flat_map. apply flat_map_ext_in'. intros p _. now apply from_place_step. }
      rewrite E. destruct new as [|p new]; [reflexivity|]. now apply IH.
  Qed.

  (** ** C26: what is found *)
  Theorem C26_found : forall root base n path steps text draft alt before,
    at_place root base = Some n -> read_path path = Ok steps ->
    exists l, ensure_path root base path text draft alt before true None
              = Ok (root, map (below base) l) /\
      (forall w, In w l <-> walk n steps w) /\ StronglySorted before_in_doc l.
  Proof.
    intros root base n path steps text draft alt before Hb Hp. exists (walks n steps).
    split; [|split; [intro w; apply walks_spec|apply walks_sorted]].
    unfold M_Paths.ensure_path, process_path. rewrite Hp. cbn [negb bind].
    rewrite unify_find by (repeat constructor; congruence). cbn [bind flat_map].
    rewrite app_nil_r. unfold from_place. rewrite Hb.
    destruct text; reflexivity.
  Qed.

  (** find: the first of them, None if there is none *)
  Theorem C26_find : forall root base n path steps,
    at_place root base = Some n -> read_path path = Ok steps ->
    (find root base path = Ok (root, None) /\ forall w, ~ walk n steps w) \/
    exists w, find root base path = Ok (root, Some (below base w)) /\ walk n steps w /\
      forall w', walk n steps w' -> w' = w \/ before_in_doc w w'.
  Proof.
    intros root base n path steps Hb Hp.
    destruct (C26_found root base n path steps None None None None Hb Hp) as (l & E & Hl & S).
    unfold M_Paths.find, M_Paths.findall. rewrite E. cbn [bind fst snd].
    destruct l as [|w l]; cbn [map].
    - left. split; [reflexivity|]. intros w H. now apply Hl in H.
    - right. exists w. split; [reflexivity|]. split; [apply Hl; now left|].
      intros w' H. apply Hl in H as [<-|H]; [auto|]. right.
      inversion S as [|? ? _ F]; subst. rewrite Forall_forall in F. auto.
  Qed.

  (** looking for alternates does not change the document either *)
  Lemma unify_find_same text draft alt md steps : forall root curr parent root' l,
    unify false text draft alt md steps root curr parent = Ok (root', l) -> root' = root.
  Proof.
    induction steps as [|st steps IH]; intros root curr parent root' l; cbn [M_Paths.unify].
    - congruence.
    - match goal with |- match ?x with _ => _ end = _ -> _ => destruct x end; [congruence|apply IH].
  Qed.
  Theorem C26_never_changes : forall root base path text draft alt before md root' l,
    ensure_path root base path text draft alt before true md = Ok (root', l) -> root' = root.
  Proof.
    intros root base path text draft alt before md root' l. unfold M_Paths.ensure_path, process_path.
    destruct (M_Paths.read_path ws ns path) as [steps|e]; cbn [bind negb]; [|discriminate].
    destruct (M_Paths.unify _ _ _ _ _ _ _ false _ _ _ _ _ _ _ _) as [[r c]|e] eqn:E; cbn [bind]; [|discriminate].
    apply unify_find_same in E. subst r. destruct text; congruence.
  Qed.
  (** and never fails once the path is read *)
  Theorem C26_total : forall root base path text draft alt before md steps,
    read_path path = Ok steps ->
    exists l, ensure_path root base path text draft alt before true md = Ok (root, l).
  Proof.
    intros root base path text draft alt before md steps Hp.
    unfold M_Paths.ensure_path, process_path. rewrite Hp. cbn [bind negb].
    assert (forall steps draft root curr parent, exists l,
              unify false text draft alt md steps root curr parent = Ok (root, l)) as H.
    { clear. induction steps as [|st steps IH]; intros draft root curr parent; cbn [M_Paths.unify]; [eauto|].
      match goal with |- context [match ?x with [] => _ | _ => _ end] => destruct x eqn:Ex end; eauto. }
    destruct (H steps (match draft with None => ud | d => d end) root [base] base) as [l E].
    rewrite E. cbn [bind]. exists l. destruct text; reflexivity.
  Qed.

  Lemma unify_alternates text draft alt md steps : steps <> [] -> forall root curr parent,
    Forall (fun p => at_place root p <> None) curr ->
    unify false text draft alt (Some md) steps root curr parent
    = Ok (root, flat_map (match_alternates root md draft (alt_name uid alt))
                  (flat_map (from_place root steps) curr)).
  Proof.
    induction steps as [|st steps IH]; [congruence|]. intros _ root curr parent V. cbn [M_Paths.unify].
    set (new := if streq (fst st) (lit ".") then curr else flat_map (matching_kids root st) curr).
    assert (Forall (fun p => at_place root p <> None) new) as Vn.
    { subst new. destruct (streq (fst st) (lit ".")); [assumption|apply matching_kids_all]. }
    assert (flat_map (from_place root (st :: steps)) curr = flat_map (from_place root steps) new) as E.
    { subst new. destruct (streq (fst st) (lit ".")) eqn:Ed.
      - apply flat_map_ext_in'. intros p _. unfold from_place. cbn [walks]. now rewrite Ed.
      - rewrite flat_map_flat_map. apply flat_map_ext_in'. intros p _. now apply from_place_step. }
    rewrite E. destruct steps as [|st2 steps].
    - rewrite (flat_map_id_places root new Vn).
      destruct (flat_map (match_alternates root md draft (alt_name uid alt)) new); reflexivity.
    - destruct new as [|p new]; [reflexivity|]. apply IH; [congruence|assumption].
  Qed.

  (** ** C26: what is found when drafts or alternates are asked for *)
  Definition draft_is (c : lnode) (draft : option pystr) : Prop :=
    exists d, draft = Some d /\ attr_is c (lit "draft") d.
  Definition alternate (c : lnode) (k : pystr) (r : lnode) : Prop :=
    exists alts, lalts c = Some alts /\ dget streq alts k = Some r.
  Definition wanted (md : draftmatch) (draft : option pystr) (name : pystr)
      (c : lnode) (q : place_in_doc) : Prop :=
    match md with
    | MatchDraft => (q = [] /\ draft_is c draft) \/
                    exists k r, q = [A k] /\ alternate c k r /\ draft_is r draft
    | MatchAlt => q = [A name] /\ exists r, alternate c name r
    | MatchBoth => q = [A name] /\ exists r, alternate c name r /\ draft_is r draft
    end.
  Lemma draft_test x draft :
    opteq (Some (match lget x (lit "draft") with Some d => d | None => [] end)) draft = true
    <-> draft_is x draft.
  Proof.
    unfold draft_is, attr_is. destruct (opteq_spec (Some (match lget x (lit "draft") with Some d => d | None => [] end)) draft) as [E|N].
    - split; [intros _|reflexivity]. subst draft. eexists. split; [reflexivity|].
      destruct (lget x (lit "draft")); auto.
    - split; [discriminate|]. intros (d & -> & [H|[H ->]]); exfalso; apply N; now rewrite H.
  Qed.
  Theorem C26_matchdraft : forall root base n path steps text draft alt before md,
    at_place root base = Some n -> read_path path = Ok steps ->
    exists l, ensure_path root base path text draft alt before true (Some md) = Ok (root, l) /\ forall q, In q l <-> exists w c r, walk n steps w /\ at_place root (below base w) = Some c /\
        q = below base w ++ r /\
        wanted md (match draft with None => ud | d => d end) (alt_name uid alt) c r.
  Proof.
    intros root base n path steps text draft alt before md Hb Hp.
    unfold M_Paths.ensure_path, process_path. rewrite Hp. cbn [negb bind].
    assert (steps <> []) as Ns.
    { unfold M_Paths.read_path in Hp. destruct (startswith _ path); [discriminate|].
      destruct (split_on 47 path) as [|x l] eqn:Es; [exfalso; eapply split_on_nonempty; exact Es|].
      cbn in Hp. destruct (read_step ws ns x); cbn in Hp; [|discriminate].
      destruct (read_steps ws ns l); cbn in Hp; congruence. }
    rewrite unify_alternates by (try assumption; repeat constructor; congruence). cbn [bind flat_map].
    rewrite app_nil_r. set (d := match draft with None => ud | d => d end).
    exists (flat_map (match_alternates root md d (alt_name uid alt)) (from_place root steps base)).
    split; [destruct text; reflexivity|]. intro q. rewrite in_flat_map.
    assert (forall c p, at_place root p = Some c ->
              In q (match_alternates root md d (alt_name uid alt) p) <->
              exists r, q = p ++ r /\ wanted md d (alt_name uid alt) c r) as M.
    { intros c p Hc. unfold match_alternates. rewrite Hc. rewrite in_app_iff. split.
      - intros [H|H].
        + destruct md; try contradiction. destruct (opteq _ d) eqn:Ed; [|contradiction].
          destruct H as [<-|[]]. exists []. rewrite app_nil_r. split; [reflexivity|]. left. split; [reflexivity|].
          now apply draft_test.
        + destruct (lalts c) as [alts|] eqn:Ea; [|contradiction]. apply in_flat_map in H as (k & Hk & H).
          destruct (dget streq alts k) as [r|] eqn:Er; [|contradiction].
          assert (alternate c k r) as Al by (exists alts; auto).
          exists [A k]. destruct md.
          * destruct (opteq _ d) eqn:Ed; [|contradiction]. destruct H as [<-|[]].
            split; [reflexivity|]. right. exists k, r. rewrite draft_test in Ed. auto.
          * destruct Hk as [<-|[]]. destruct H as [<-|[]]. split; [reflexivity|]. cbn. eauto.
          * destruct Hk as [<-|[]]. destruct (opteq _ d) eqn:Ed; [|contradiction].
            destruct H as [<-|[]]. split; [reflexivity|]. cbn. rewrite draft_test in Ed. eauto.
      - intros (r & -> & W). destruct md; cbn in W.
        + destruct W as [[-> W]|(k & x & -> & (alts & Ea & Ek) & W)].
          * left. apply draft_test in W. rewrite W. left. now rewrite app_nil_r.
          * right. rewrite Ea. apply in_flat_map. exists k. split.
            -- apply (dget_Some_iff _ streq_spec). eauto.
            -- rewrite Ek. apply draft_test in W. rewrite W. now left.
        + destruct W as (-> & x & (alts & Ea & Ek)). right. rewrite Ea. apply in_flat_map.
          exists (alt_name uid alt). split; [now left|]. rewrite Ek. now left.
        + destruct W as (-> & x & (alts & Ea & Ek) & W). right. rewrite Ea. apply in_flat_map.
          exists (alt_name uid alt). split; [now left|]. rewrite Ek. apply draft_test in W. rewrite W. now left. }
    split.
    - intros (p & Hp' & H). unfold from_place in Hp'. rewrite Hb in Hp'.
      apply in_map_iff in Hp' as (w & <- & Hw). apply walks_spec in Hw.
      unfold match_alternates in H. destruct (at_place root (below base w)) as [c|] eqn:Ec; [|contradiction].
      pose proof (M c (below base w) Ec) as M'. unfold match_alternates in M'. rewrite Ec in M'.
      apply M' in H as (r & -> & W). exists w, c, r. auto.
    - intros (w & c & r & Hw & Hc & -> & W). exists (below base w). split.
      + unfold from_place. rewrite Hb. apply in_map. now apply walks_spec.
      + apply (M c); [assumption|]. eauto.
  Qed.
End Theorems.
