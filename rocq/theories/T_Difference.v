(** C33 and C34: taking out of a document what another has (LdmlMerge.difference), and
    filling it in again. *)
From Coq Require Import String.
From Verif Require Import Py PyFacts M_LdmlBase M_Serialize M_Normalise M_Drafts T_Drafts T_Promote T_AddNode M_Merge T_Overlay.
Local Open Scope list_scope.
Local Open Scope nat_scope.

(** * Specification *)

Definition no_text (t : lnode) : Prop := ltext t = None \/ ltext t = Some [].
(** where both have alternates, those of [t] are all in [x] with the same content. An element
    whose counterpart has no alternates at all counts as the same, and its alternates go with it:
    see C33_alternates_refuted. *)
Definition alts_same (t x : lnode) : Prop :=
  match lalts t, lalts x with
  | Some a, Some b => forall k v, In (k, v) a -> exists w, In (k, w) b /\ lch w = lch v
  | _, _ => True
  end.
Definition alts_keyed : lnode -> Prop :=
  everywhere (fun x => match lalts x with Some a => NoDup (dkeys a) | None => True end).

(** an element that the element [x] at the same place in the other document makes superfluous:
    it has the same content, or nothing is left of it when its superfluous children are taken
    out and it has no text of its own *)
Inductive gone (m : meta) : lnode -> lnode -> Prop :=
| gone_same t x : lch t = lch x -> alts_same t x -> gone m t x
| gone_empty t x : ~ is_blocked m t -> lkids t <> [] \/ lkids x <> [] ->
    (forall c, In c (lkids t) -> exists y, find_key (lah c) (lkids x) = Some y /\ gone m c y) ->
    no_text t \/ ltext t = ltext x -> alts_same t x -> gone m t x.
(** the paths that go: those through a superfluous element *)
Inductive removed (m : meta) : lnode -> lnode -> list Z -> Prop :=
| removed_here s o k p c y : find_key k (lkids s) = Some c -> find_key k (lkids o) = Some y ->
    gone m c y -> removed m s o (k :: p)
| removed_below s o k p c y : find_key k (lkids s) = Some c -> find_key k (lkids o) = Some y ->
    ~ is_blocked m c -> lch c <> lch y -> removed m c y p -> removed m s o (k :: p).

(** the alternates [t'] has are some of those of [t]; those missing are in [x] *)
Definition alts_pared (t t' : lnode) (x : option lnode) : Prop :=
  lalts t' = lalts t \/
  exists a a' y b, lalts t = Some a /\ lalts t' = Some a' /\ x = Some y /\ lalts y = Some b /\
    forall k v, In (k, v) a' <-> In (k, v) a /\ ~ exists w, In (k, w) b /\ lch w = lch v.

(** the same paths and texts *)
Definition agree (t x : lnode) : Prop :=
  forall q, match lookup t q, lookup x q with
            | Some t', Some x' => ltext t' = ltext x'
            | None, None => True
            | _, _ => False
            end.
(** equal content hashes mean equal paths and texts *)
Definition hashes_mean (s o : lnode) : Prop :=
  forall p t x, p <> [] -> lookup s p = Some t -> lookup o p = Some x -> lch t = lch x ->
    agree t x.

(** * Proof *)
Section Difference.
  Variable m : meta.
  Local Notation difference := (difference m).
  Local Notation blocked := (blocked m).

  Definition child_result (o t : lnode) : option lnode :=
    let '(same, t') := if Z.eqb (lch o) (lch t) then (true, t) else difference o t in
    if same then pare_child o t' else Some t'.
  Definition dstep (this o : lnode) : lnode :=
    match key_index o (lkids this) with
    | None => this
    | Some i =>
        match nth_error (lkids this) i with
        | None => this
        | Some t => match child_result o t with
                    | Some t2 => set_kids this (replace_nth i t2 (lkids this))
                    | None => set_kids this (drop_nth i (lkids this))
                    end
        end
    end.
  Definition leaves (o t : lnode) : bool := match lkids o, lkids t with [], [] => true | _, _ => false end.
  Definition emptied (o t : lnode) : bool :=
    (match lkids t with [] => true | _ => false end)
    && (match ltext t with None | Some [] => true | _ => opteq (ltext t) (ltext o) end).

  Lemma fold_left_ext {A B} (f g : A -> B -> A) l : forall a, (forall a b, In b l -> f a b = g a b) ->
    fold_left f l a = fold_left g l a.
  Proof.
    induction l as [|b l IH]; intros a H; cbn [fold_left]; [reflexivity|].
    rewrite H by now left. apply IH. intros. apply H. now right.
  Qed.
  Lemma difference_eq o t : difference o t =
    if (leaves o t || blocked t)%bool then (Z.eqb (lch o) (lch t), t)
    else let t' := fold_left dstep (lkids o) t in (emptied o t', t').
  Proof.
    destruct o as [ot oa ox oh oc oal ok]. cbn [M_Merge.difference]. unfold leaves. cbn [lkids lch].
    destruct (_ || _)%bool; [reflexivity|].
    match goal with |- (_, fold_left ?f ok t) = _ => assert (fold_left f ok t = fold_left dstep ok t) as -> end.
    { apply fold_left_ext. intros a b _. unfold dstep, child_result.
      destruct (key_index b (lkids a)); [|reflexivity]. destruct (nth_error (lkids a) n); [|reflexivity].
      destruct (Z.eqb (lch b) (lch l)); [reflexivity|]. destruct (difference b l) as [[|] t']; reflexivity. }
    reflexivity.
  Qed.

  (** closed form of the loop *)
  Definition keep (okids : list lnode) (c : lnode) : list lnode :=
    match find_key (lah c) okids with
    | None => [c]
    | Some y => match child_result y c with Some c' => [c'] | None => [] end
    end.

  Lemma dstep_other this o : stays this (dstep this o).
  Proof.
    unfold dstep. destruct (key_index o (lkids this)); [|apply stays_refl].
    destruct (nth_error _ _); [|apply stays_refl]. destruct (child_result o l); apply stays_set_kids.
  Qed.
  Lemma fold_dstep_stays okids : forall this, stays this (fold_left dstep okids this).
  Proof.
    induction okids as [|o okids IH]; intro this; [apply stays_refl|]. cbn [fold_left].
    eapply stays_trans; [apply dstep_other|apply IH].
  Qed.
  Lemma difference_stays o t : stays t (snd (difference o t)).
  Proof.
    rewrite difference_eq. destruct (_ || _)%bool; [apply stays_refl|]. cbn [snd]. apply fold_dstep_stays.
  Qed.
  Lemma pare_child_fields o t t' : pare_child o t = Some t' ->
    ltag t' = ltag t /\ lattrs t' = lattrs t /\ ltext t' = ltext t /\ lah t' = lah t /\ lch t' = lch t /\ lkids t' = lkids t.
  Proof.
    unfold pare_child. destruct (lalts t); [|discriminate]. destruct (lalts o); [|discriminate].
    destruct (pare_alts l0 l); [discriminate|]. intro E. injection E as <-.
    destruct t. cbn. auto 10.
  Qed.
  Lemma child_result_lah o t t' : child_result o t = Some t' -> lah t' = lah t.
  Proof.
    unfold child_result. destruct (Z.eqb _ _).
    - intro H. now apply pare_child_fields in H.
    - pose proof (difference_stays o t) as [(_ & _ & S & _) _]. destruct (difference o t) as [b u]. cbn [snd] in S.
      destruct b; [|congruence]. intro H. apply pare_child_fields in H as (_ & _ & _ & H & _). congruence.
  Qed.

  Lemma dstep_kids this o : NoDup (map lah (lkids this)) ->
    lkids (dstep this o) = flat_map (keep [o]) (lkids this).
  Proof.
    unfold dstep, key_index. destruct this as [a b x h c al k]. cbn [lkids]. intro ND.
    assert (match index_where (same_key o) k with
            | None => forall y, In y k -> lah y <> lah o
            | Some i => exists t, nth_error k i = Some t /\ lah t = lah o
            end) as I.
    { pose proof (index_where_spec (same_key o) k) as I. destruct (index_where _ _) as [i|].
      - destruct I as (t & H1 & H2 & _). exists t. split; [assumption|]. now apply Z.eqb_eq.
      - intros y Hy. specialize (I y Hy). now apply Z.eqb_neq. }
    assert (forall l, (forall y, In y l -> lah y <> lah o) -> flat_map (keep [o]) l = l) as Id.
    { clear. induction l as [|y l IH]; intro H; [reflexivity|]. cbn [flat_map]. rewrite IH by (intros; apply H; now right).
      unfold keep, find_key. cbn [find]. destruct (Z.eqb_spec (lah o) (lah y)) as [E|_]; [|reflexivity].
      exfalso. apply (H y (or_introl eq_refl)). congruence. }
    destruct (index_where (same_key o) k) as [i|]; [|cbn [lkids]; symmetry; now apply Id].
    destruct I as (t & Hi & Ht). rewrite Hi.
    assert (forall k i, NoDup (map lah k) -> nth_error k i = Some t ->
       flat_map (keep [o]) k = match child_result o t with Some t2 => replace_nth i t2 k | None => drop_nth i k end) as Main.
    { clear - Ht Id. induction k as [|y k IH]; intros [|i] ND Hi; try discriminate; cbn [flat_map];
        cbn [map] in ND; inversion ND as [|? ? N1 N2]; subst.
      - cbn in Hi. injection Hi as ->. rewrite Id.
        + unfold keep, find_key. cbn [find]. rewrite Ht, Z.eqb_refl. destruct (child_result o t); reflexivity.
        + intros z Hz E. apply N1. rewrite Ht, <- E. now apply in_map.
      - cbn in Hi. rewrite (IH i N2 Hi).
        assert (keep [o] y = [y]) as ->.
        { unfold keep, find_key. cbn [find]. destruct (Z.eqb_spec (lah o) (lah y)) as [E|_]; [|reflexivity].
          exfalso. apply N1. rewrite <- E, <- Ht. apply in_map. eapply nth_error_In; eassumption. }
        destruct (child_result o t); reflexivity. }
    rewrite (Main k i ND Hi). destruct (child_result o t); reflexivity.
  Qed.
  Lemma keep_lah okids c c' : In c' (keep okids c) -> lah c' = lah c.
  Proof.
    unfold keep. destruct (find_key (lah c) okids).
    - destruct (child_result l c) eqn:E; [|intros []]. intros [<-|[]]. eapply child_result_lah; eassumption.
    - intros [<-|[]]. reflexivity.
  Qed.
  Lemma keep_one okids c : keep okids c = [] \/ exists c', keep okids c = [c'].
  Proof. unfold keep. destruct (find_key _ _); [destruct (child_result l c)|]; eauto. Qed.
  Lemma flat_keep_NoDup okids l : NoDup (map lah l) -> NoDup (map lah (flat_map (keep okids) l)).
  Proof.
    induction l as [|c l IH]; intro ND; [constructor|]. cbn [map] in ND. inversion ND as [|? ? N1 N2]; subst.
    cbn [flat_map]. destruct (keep_one okids c) as [->|[c' E]]; [now apply IH|]. rewrite E. cbn [app map].
    constructor; [|now apply IH]. rewrite (keep_lah okids c c') by (rewrite E; now left).
    intro H. apply N1. apply in_map_iff in H as (z & Hz & H). apply in_flat_map in H as (w & Hw & H).
    apply keep_lah in H. rewrite <- Hz, H. now apply in_map.
  Qed.
  Lemma fold_dstep_kids okids : NoDup (map lah okids) -> forall this, NoDup (map lah (lkids this)) ->
    lkids (fold_left dstep okids this) = flat_map (keep okids) (lkids this).
  Proof.
    induction okids as [|o okids IH]; intros No this Nt; cbn [fold_left].
    - symmetry. induction (lkids this) as [|c l IHl]; [reflexivity|]. cbn [flat_map map] in *.
      inversion Nt; subst. rewrite IHl by assumption. reflexivity.
    - cbn [map] in No. inversion No as [|? ? N1 N2]; subst.
      rewrite IH; [|assumption|rewrite dstep_kids by assumption; now apply flat_keep_NoDup].
      rewrite dstep_kids by assumption.
      clear Nt. induction (lkids this) as [|c l IHl]; [reflexivity|]. cbn [flat_map]. rewrite flat_map_app, IHl. f_equal.
      unfold keep at 2 3. unfold find_key at 1 2. cbn [find].
      destruct (Z.eqb_spec (lah o) (lah c)) as [E|N].
      + assert (find_key (lah c) okids = None) as Hn by (apply find_key_none; now rewrite <- E).
        destruct (child_result o c) as [c'|] eqn:Ec; [|reflexivity]. cbn [flat_map].
        unfold keep. rewrite (child_result_lah _ _ _ Ec), Hn. reflexivity.
      + cbn [flat_map]. rewrite app_nil_r. unfold keep. reflexivity.
  Qed.

  Lemma find_key_flat okids l k : NoDup (map lah l) ->
    find_key k (flat_map (keep okids) l)
    = match find_key k l with
      | None => None
      | Some c => match keep okids c with c' :: _ => Some c' | [] => None end
      end.
  Proof.
    induction l as [|c l IH]; intro ND; [reflexivity|]. cbn [map] in ND. inversion ND as [|? ? N1 N2]; subst.
    cbn [flat_map]. rewrite find_key_app, IH by assumption. unfold find_key at 3. cbn [find]. fold (find_key k l).
    destruct (Z.eqb_spec (lah c) k) as [<-|N].
    - assert (find_key (lah c) l = None) as -> by now apply find_key_none.
      destruct (keep_one okids c) as [->|[c' E]]; [reflexivity|]. rewrite E.
      unfold find_key. cbn [find]. rewrite (keep_lah okids c c') by (rewrite E; now left). now rewrite Z.eqb_refl.
    - assert (find_key k (keep okids c) = None) as ->; [|reflexivity].
      apply find_key_none. intro H. apply in_map_iff in H as (z & Hz & H). apply keep_lah in H. congruence.
  Qed.

  (** alternates *)
  Definition paired (b : list (pystr * lnode)) (kv : pystr * lnode) : bool :=
    match dget streq b (fst kv) with Some w => Z.eqb (lch w) (lch (snd kv)) | None => false end.
  Lemma ddel_filter (d : list (pystr * lnode)) k : NoDup (dkeys d) ->
    ddel streq d k = filter (fun kv => negb (streq k (fst kv))) d.
  Proof.
    induction d as [|[k' v] d IH]; intro ND; [reflexivity|]. cbn [dkeys map fst] in ND.
    inversion ND as [|? ? N1 N2]; subst. cbn [ddel filter fst]. destruct (streq_spec k k') as [->|N]; cbn [negb].
    - symmetry. clear - N1. induction d as [|[k2 v2] d IH]; [reflexivity|]. cbn [filter fst map] in *.
      destruct (streq_spec k' k2) as [->|]; [exfalso; apply N1; now left|]. cbn [negb]. rewrite IH; [reflexivity|]. intro H. apply N1. now right.
    - now rewrite IH.
  Qed.
  Lemma filter_NoDup_keys (f : pystr * lnode -> bool) d : NoDup (dkeys d) -> NoDup (dkeys (filter f d)).
  Proof.
    induction d as [|[k v] d IH]; intro ND; [constructor|]. cbn [dkeys map fst] in ND.
    inversion ND as [|? ? N1 N2]; subst. cbn [filter]. destruct (f (k, v)); [|now apply IH].
    cbn [dkeys map fst]. constructor; [|now apply IH]. intro H. apply N1. unfold dkeys in H.
    apply in_map_iff in H as ((k' & v') & <- & H). apply filter_In in H as [H _]. now apply (in_map fst) in H.
  Qed.
  Lemma pare_alts_filter b a : NoDup (dkeys b) -> NoDup (dkeys a) ->
    pare_alts b a = filter (fun kv => negb (paired b kv)) a.
  Proof.
    unfold pare_alts. revert a. induction b as [|[k w] b IH]; intros a Nb Na; cbn [fold_left fst snd].
    - symmetry. induction a as [|kv a IHa]; [reflexivity|]. cbn [dkeys map] in Na. inversion Na; subst.
      cbn [filter]. rewrite IHa by assumption. reflexivity.
    - cbn [dkeys map fst] in Nb. inversion Nb as [|? ? N1 N2]; subst.
      assert (dget streq b k = None) as Hk.
      { destruct (dget streq b k) eqn:E; [|reflexivity]. exfalso. apply N1. apply (dget_Some_iff _ streq_spec). eauto. }
      assert (forall l, (forall kv, In kv l -> fst kv <> k) ->
                filter (fun kv => negb (paired ((k, w) :: b) kv)) l = filter (fun kv => negb (paired b kv)) l) as Q.
      { clear. induction l as [|kv l IHl]; intro H; [reflexivity|]. cbn [filter].
        rewrite IHl by (intros; apply H; now right). unfold paired at 1 3. cbn [dget].
        destruct (streq_spec (fst kv) k) as [E|_]; [|reflexivity]. exfalso. now apply (H kv (or_introl eq_refl)). }
      assert (forall l, NoDup (dkeys l) -> In k (dkeys l) -> forall v, dget streq l k = Some v ->
         filter (fun kv => negb (paired ((k, w) :: b) kv)) l
         = filter (fun kv => negb (paired b kv)) (if Z.eqb (lch w) (lch v) then filter (fun kv => negb (streq k (fst kv))) l else l)) as R.
      { clear - Q Hk. induction l as [|[k' v'] l IHl]; intros ND Hin v Hv; [destruct Hin|].
        cbn [dkeys map fst] in ND. inversion ND as [|? ? M1 M2]; subst. cbn [dget] in Hv.
        destruct (streq_spec k k') as [<-|Nk].
        - injection Hv as ->. assert (forall kv, In kv l -> fst kv <> k) as Hl.
          { intros kv Hkv E. apply M1. rewrite <- E. now apply in_map. }
          cbn [filter fst]. rewrite streq_refl. cbn [negb]. unfold paired at 1. cbn [dget fst snd]. rewrite streq_refl.
          rewrite Q by assumption.
          assert (filter (fun kv : pystr * lnode => negb (streq k (fst kv))) l = l) as ->.
          { clear - Hl. induction l as [|kv l IHl]; [reflexivity|]. cbn [filter].
            destruct (streq_spec k (fst kv)) as [E|_]; [exfalso; apply (Hl kv (or_introl eq_refl)); congruence|].
            cbn [negb]. rewrite IHl; [reflexivity|]. intros. apply Hl. now right. }
          destruct (Z.eqb (lch w) (lch v)); cbn [negb]; [reflexivity|]. cbn [filter].
          unfold paired at 2. cbn [fst]. rewrite Hk. reflexivity.
        - assert (In k (dkeys l)) as Hin' by (destruct Hin as [E|]; [cbn in E; congruence|assumption]).
          specialize (IHl M2 Hin' v Hv). cbn [filter fst].
          assert (paired ((k, w) :: b) (k', v') = paired b (k', v')) as ->.
          { unfold paired. cbn [dget fst]. destruct (streq_spec k' k); [congruence|reflexivity]. }
          rewrite IHl. destruct (streq_spec k k'); [contradiction|]. cbn [negb].
          destruct (Z.eqb (lch w) (lch v)); reflexivity. }
      destruct (dget streq a k) as [v|] eqn:Ev.
      + assert (In k (dkeys a)) as Hin by (apply (dget_Some_iff _ streq_spec); eauto).
        rewrite (R a Na Hin v Ev). destruct (Z.eqb (lch w) (lch v)).
        * rewrite ddel_filter by assumption. apply IH; [assumption|]. now apply filter_NoDup_keys.
        * now apply IH.
      + rewrite IH by assumption. symmetry. apply Q. intros kv Hkv E.
        assert (In k (dkeys a)) as Hin by (rewrite <- E; now apply in_map).
        apply (dget_Some_iff _ streq_spec) in Hin as [v Hv]. congruence.
  Qed.
  Lemma paired_spec b k v : NoDup (dkeys b) -> paired b (k, v) = true <-> exists w, In (k, w) b /\ lch w = lch v.
  Proof.
    intro ND. unfold paired. cbn [fst snd]. split.
    - destruct (dget streq b k) as [w|] eqn:E; [|discriminate]. intro H. apply Z.eqb_eq in H. exists w.
      split; [now apply (dget_In _ streq_spec)|assumption].
    - intros (w & Hw & E). apply (dget_NoDup_In _ streq_spec) in Hw; [|assumption]. rewrite Hw. now apply Z.eqb_eq.
  Qed.
  Definition alts_nodup (x : lnode) : Prop := match lalts x with Some a => NoDup (dkeys a) | None => True end.
  Lemma pare_child_none o t : alts_nodup o -> alts_nodup t -> (pare_child o t = None <-> alts_same t o).
  Proof.
    unfold alts_nodup, pare_child, alts_same. destruct (lalts t) as [a|]; [|tauto].
    destruct (lalts o) as [b|]; [|tauto]. intros Nb Na. rewrite pare_alts_filter by assumption. split.
    - intros H k v Hin. apply (paired_spec b k v Nb).
      destruct (paired b (k, v)) eqn:E; [reflexivity|]. exfalso.
      assert (In (k, v) (filter (fun kv => negb (paired b kv)) a)) as Hf by (apply filter_In; split; [assumption|now rewrite E]).
      destruct (filter _ a); [destruct Hf|discriminate].
    - intro H. assert (filter (fun kv => negb (paired b kv)) a = []) as ->; [|reflexivity].
      destruct (filter _ a) as [|[k v] l] eqn:E; [reflexivity|]. exfalso.
      assert (In (k, v) (filter (fun kv => negb (paired b kv)) a)) as Hf by (rewrite E; now left).
      apply filter_In in Hf as [H1 H2]. apply H in H1. apply (paired_spec b k v Nb) in H1. now rewrite H1 in H2.
  Qed.
  Lemma pare_child_some o t t' : alts_nodup o -> alts_nodup t -> pare_child o t = Some t' ->
    alts_pared t t' (Some o).
  Proof.
    unfold alts_nodup, pare_child, alts_pared. destruct (lalts t) as [a|] eqn:Ea; [|discriminate].
    destruct (lalts o) as [b|] eqn:Eb; [|discriminate]. intros Nb Na. rewrite pare_alts_filter by assumption.
    destruct (filter _ a) as [|kv l] eqn:E; [discriminate|]. intro H. injection H as <-. right.
    exists a, (kv :: l), o, b. split; [reflexivity|]. split; [now destruct t|]. split; [reflexivity|]. split; [assumption|].
    intros k v. rewrite <- E, filter_In. rewrite <- (paired_spec b k v Nb). destruct (paired b (k, v)); cbn; intuition congruence.
  Qed.

  (** the value returned *)
  Lemma emptied_spec o t : emptied o t = true <-> lkids t = [] /\ (no_text t \/ ltext t = ltext o).
  Proof.
    unfold emptied, no_text. rewrite Bool.andb_true_iff. destruct (lkids t) as [|c l].
    - destruct (ltext t) as [[|ch s]|]; [tauto| |tauto].
      destruct (opteq_spec (Some (ch :: s)) (ltext o)) as [E|N]; [tauto|].
      split; [intros [_ H]; discriminate|]. intros [_ [[H|H]|H]]; [discriminate|discriminate|contradiction].
    - split; [intros [H _]; discriminate|intros [H _]; discriminate].
  Qed.

  Lemma child_none_gone o : keyed o -> alts_keyed o -> forall t, keyed t -> alts_keyed t ->
    (child_result o t = None <-> gone m t o).
  Proof.
    induction o as [ot oa ox oh oc oal ok IH] using lnode_kids_ind. set (o := LNode ot oa ox oh oc oal ok) in *.
    rewrite Forall_forall in IH. intros Ko Ao t Kt At. unfold child_result.
    destruct (Z.eqb_spec (lch o) (lch t)) as [Eh|Nh].
    - rewrite (pare_child_none o t (ew_here _ _ Ao) (ew_here _ _ At)). split.
      + intro H. apply gone_same; [congruence|assumption].
      + intro H. destruct H; assumption.
    - pose proof (difference_stays o t) as [(_ & _ & _ & _ & Sa) Sx].
      revert Sa Sx. rewrite difference_eq. intros Sa Sx. destruct (leaves o t || blocked t)%bool eqn:El.
      + destruct (Z.eqb_spec (lch o) (lch t)); [contradiction|]. split; [discriminate|].
        intro H. inversion H as [? ? E|? ? Nb Nl _ _ _]; subst; [congruence|].
        exfalso. apply Bool.orb_true_iff in El as [El|El].
        * unfold leaves in El. destruct (lkids o) eqn:E1; [|discriminate]. destruct (lkids t) eqn:E2; [|discriminate].
          destruct Nl as [Nl|Nl]; contradiction.
        * apply blocked_spec in El. contradiction.
      + cbn [snd] in *. set (t' := fold_left dstep (lkids o) t) in *.
        apply Bool.orb_false_iff in El as [Ell Elb].
        assert (lkids t' = flat_map (keep (lkids o)) (lkids t)) as Ek
          by (apply fold_dstep_kids; [exact (ew_here _ _ Ko)|exact (ew_here _ _ Kt)]).
        assert (lkids t' = [] <-> forall c, In c (lkids t) -> exists y, find_key (lah c) (lkids o) = Some y /\ gone m c y) as Hk.
        { rewrite Ek. split.
          - intros H c Hc. assert (keep (lkids o) c = []) as E.
            { destruct (keep (lkids o) c) as [|z l] eqn:E; [reflexivity|]. exfalso.
              assert (In z (flat_map (keep (lkids o)) (lkids t))) as Hz
                by (apply in_flat_map; exists c; split; [assumption|rewrite E; now left]).
              rewrite H in Hz. destruct Hz. }
            unfold keep in E. destruct (find_key (lah c) (lkids o)) as [y|] eqn:Ey; [|discriminate].
            exists y. split; [reflexivity|]. destruct (find_key_in _ _ _ Ey) as [Iy _].
            apply (IH y Iy (ew_kid _ _ _ Ko Iy) (ew_kid _ _ _ Ao Iy) c (ew_kid _ _ _ Kt Hc) (ew_kid _ _ _ At Hc)).
            destruct (child_result y c); [discriminate|reflexivity].
          - intro H. destruct (flat_map (keep (lkids o)) (lkids t)) as [|z l] eqn:E; [reflexivity|]. exfalso.
            assert (In z (flat_map (keep (lkids o)) (lkids t))) as Hz by (rewrite E; now left).
            apply in_flat_map in Hz as (c & Hc & Hz). destruct (H c Hc) as (y & Ey & G).
            unfold keep in Hz. rewrite Ey in Hz. destruct (find_key_in _ _ _ Ey) as [Iy _].
            apply (IH y Iy (ew_kid _ _ _ Ko Iy) (ew_kid _ _ _ Ao Iy) c (ew_kid _ _ _ Kt Hc) (ew_kid _ _ _ At Hc)) in G.
            rewrite G in Hz. destruct Hz. }
        assert (alts_nodup t') as At' by (unfold alts_nodup; rewrite Sa; exact (ew_here _ _ At)).
        assert (alts_same t' o <-> alts_same t o) as Has by (unfold alts_same; now rewrite Sa).
        assert (no_text t' <-> no_text t) as Hnt by (unfold no_text; now rewrite Sx).
        destruct (emptied o t') eqn:Ee.
        * apply emptied_spec in Ee as [E1 E2]. rewrite Sx, Hnt in E2.
          rewrite (pare_child_none o t' (ew_here _ _ Ao) At'), Has. split.
          -- intro Ha. apply gone_empty; try assumption.
             ++ now apply not_blocked.
             ++ unfold leaves in Ell. destruct (lkids o) as [|y l]; [|right; discriminate].
                destruct (lkids t); [discriminate|left; discriminate].
             ++ now apply Hk.
          -- intro H. now destruct H.
        * split; [discriminate|]. intro H. exfalso. inversion H as [? ? E|? ? Nb Nl Hg Ht _]; subst; [congruence|].
          assert (emptied o t' = true) as Et; [|congruence]. apply emptied_spec. rewrite Sx, Hnt.
          split; [now apply Hk|assumption].
  Qed.

  (** ** the result at a path *)
  Lemma difference_lookup : forall p s o, keyed s -> keyed o -> alts_keyed s -> alts_keyed o ->
    ~ is_blocked m s -> p <> [] ->
    (lookup s p <> None -> lookup (snd (difference o s)) p = None -> removed m s o p) /\
    (removed m s o p -> lookup (snd (difference o s)) p = None) /\
    (forall t', lookup (snd (difference o s)) p = Some t' ->
       exists t, lookup s p = Some t /\ ltag t' = ltag t /\ lattrs t' = lattrs t /\ ltext t' = ltext t /\
         lah t' = lah t /\ lch t' = lch t /\ alts_pared t t' (lookup o p)).
  Proof.
    induction p as [|k p IH]; intros s o Ks Ko As Ao Nb Np; [congruence|]. clear Np.
    rewrite difference_eq. destruct (leaves o s || blocked s)%bool eqn:El.
    { apply not_blocked in Nb. rewrite Nb, Bool.orb_false_r in El. cbn [snd].
      assert (lkids o = [] /\ lkids s = []) as [E1 E2].
      { unfold leaves in El. destruct (lkids o); [|discriminate]. destruct (lkids s); [auto|discriminate]. }
      cbn [lookup]. rewrite E2. cbn. split; [congruence|]. split; [reflexivity|discriminate]. }
    apply Bool.orb_false_iff in El as [El _]. cbn [snd].
    set (s' := fold_left dstep (lkids o) s).
    assert (lkids s' = flat_map (keep (lkids o)) (lkids s)) as Ek
      by (apply fold_dstep_kids; [exact (ew_here _ _ Ko)|exact (ew_here _ _ Ks)]).
    cbn [lookup]. rewrite Ek, find_key_flat by exact (ew_here _ _ Ks).
    destruct (find_key k (lkids s)) as [c|] eqn:Ec.
    2:{ split; [congruence|]. split; [reflexivity|discriminate]. }
    pose proof (find_key_in _ _ _ Ec) as [Ic Lc].
    unfold keep. rewrite Lc. destruct (find_key k (lkids o)) as [y|] eqn:Ey.
    2:{ split; [congruence|]. split.
        - intro H. inversion H; subst; congruence.
        - intros t' Ht'. exists t'. split; [assumption|]. repeat split. now left. }
    pose proof (find_key_in _ _ _ Ey) as [Iy Ly].
    assert (keyed c /\ keyed y /\ alts_keyed c /\ alts_keyed y) as (Kc & Ky & Ac & Ay)
      by (split; [exact (ew_kid _ _ _ Ks Ic)|split; [exact (ew_kid _ _ _ Ko Iy)|split; [exact (ew_kid _ _ _ As Ic)|exact (ew_kid _ _ _ Ao Iy)]]]).
    pose proof (child_none_gone y Ky Ay c Kc Ac) as Cg.
    destruct (child_result y c) as [c'|] eqn:Er.
    - assert (~ gone m c y) as Ng by (intro G; apply Cg in G; discriminate).
      revert Er. unfold child_result. destruct (Z.eqb_spec (lch y) (lch c)) as [Eh|Nh].
      + (* same content, but alternates are left *)
        intro Er. destruct (pare_child_fields _ _ _ Er) as (F1 & F2 & F3 & F4 & F5 & F6).
        assert (forall q, q <> [] -> lookup c' q = lookup c q) as Lq.
        { intros [|k2 q] Nq; [congruence|]. cbn [lookup]. now rewrite F6. }
        split; [|split].
        * intros H1 H2. exfalso. destruct p as [|k2 p]; [discriminate|]. rewrite Lq in H2 by discriminate. congruence.
        * intro H. inversion H; subst.
          -- assert (c0 = c) by congruence. assert (y0 = y) by congruence. subst. contradiction.
          -- assert (c0 = c) by congruence. assert (y0 = y) by congruence. subst. congruence.
        * intros t' Ht'. destruct p as [|k2 p].
          -- injection Ht' as <-. exists c. split; [reflexivity|]. repeat split; try assumption.
             eapply pare_child_some; [exact (ew_here _ _ Ay)|exact (ew_here _ _ Ac)|assumption].
          -- rewrite Lq in Ht' by discriminate. exists t'. split; [assumption|]. repeat split. now left.
      + pose proof (difference_stays y c) as [(S1 & S2 & S3 & S4 & S5) S6].
        destruct (difference y c) as [b u] eqn:Ed. cbn [snd] in *. intro Er.
        assert (ltag c' = ltag c /\ lattrs c' = lattrs c /\ ltext c' = ltext c /\ lah c' = lah c /\ lch c' = lch c /\
                lkids c' = lkids u /\ alts_pared c c' (Some y)) as (F1 & F2 & F3 & F4 & F5 & F6 & F7).
        { destruct b.
          - destruct (pare_child_fields _ _ _ Er) as (G1 & G2 & G3 & G4 & G5 & G6).
            apply pare_child_some in Er; [|exact (ew_here _ _ Ay)|unfold alts_nodup; rewrite S5; exact (ew_here _ _ Ac)].
            repeat split; try congruence. unfold alts_pared in *. rewrite S5 in Er. exact Er.
          - injection Er as <-. repeat split; try assumption. now left. }
        assert (forall q, q <> [] -> lookup c' q = lookup u q) as Lq.
        { intros [|k2 q] Nq; [congruence|]. cbn [lookup]. now rewrite F6. }
        destruct (blocked c) eqn:Eb.
        * (* blocked: nothing is looked at below *)
          assert (u = c) as ->.
          { revert Ed. rewrite difference_eq, Eb, Bool.orb_true_r. congruence. }
          split; [|split].
          -- intros H1 H2. exfalso. destruct p as [|k2 p]; [discriminate|]. rewrite Lq in H2 by discriminate. congruence.
          -- intro H. apply blocked_spec in Eb. inversion H; subst.
             ++ assert (c0 = c) by congruence. assert (y0 = y) by congruence. subst. contradiction.
             ++ assert (c0 = c) by congruence. subst. contradiction.
          -- intros t' Ht'. destruct p as [|k2 p].
             ++ injection Ht' as <-. exists c. auto 10.
             ++ rewrite Lq in Ht' by discriminate. exists t'. split; [assumption|]. repeat split. now left.
        * apply not_blocked in Eb. destruct p as [|k2 p].
          -- split; [intros _ H; discriminate|]. split.
             ++ intro H. exfalso. inversion H; subst.
                ** assert (c0 = c) by congruence. assert (y0 = y) by congruence. subst. contradiction.
                ** match goal with H : removed _ _ _ [] |- _ => inversion H end.
             ++ intros t' Ht'. injection Ht' as <-. exists c. auto 10.
          -- rewrite Lq by discriminate.
             destruct (IH c y Kc Ky Ac Ay Eb ltac:(discriminate)) as (I1 & I2 & I3). rewrite Ed in I1, I2, I3. cbn [snd] in *.
             split; [|split].
             ++ intros H1 H2. eapply removed_below; try eassumption; [congruence|]. now apply I1.
             ++ intro H. apply I2. inversion H; subst.
                ** assert (c0 = c) by congruence. assert (y0 = y) by congruence. subst. contradiction.
                ** assert (c0 = c) by congruence. assert (y0 = y) by congruence. now subst.
             ++ exact I3.
    - assert (gone m c y) as G by now apply Cg. split; [|split].
      + intros _ _. eapply removed_here; eassumption.
      + reflexivity.
      + discriminate.
  Qed.

  (** ** C33 *)
  Theorem C33_removed : forall s o p, keyed s -> keyed o -> alts_keyed s -> alts_keyed o -> ~ is_blocked m s ->
    p <> [] -> lookup s p <> None ->
    (lookup (snd (difference o s)) p = None <-> removed m s o p).
  Proof.
    intros s o p Ks Ko As Ao Nb Np Hp. destruct (difference_lookup p s o Ks Ko As Ao Nb Np) as (H1 & H2 & _).
    split; auto.
  Qed.
  Theorem C33_remaining : forall s o p t', keyed s -> keyed o -> alts_keyed s -> alts_keyed o -> ~ is_blocked m s ->
    p <> [] -> lookup (snd (difference o s)) p = Some t' ->
    exists t, lookup s p = Some t /\ ltag t' = ltag t /\ lattrs t' = lattrs t /\ ltext t' = ltext t /\
      lah t' = lah t /\ lch t' = lch t /\ alts_pared t t' (lookup o p).
  Proof.
    intros s o p t' Ks Ko As Ao Nb Np H. destruct (difference_lookup p s o Ks Ko As Ao Nb Np) as (_ & _ & H3).
    now apply H3.
  Qed.

  Definition mean (s o : lnode) : Prop :=
    forall p t x, lookup s p = Some t -> lookup o p = Some x -> lch t = lch x -> agree t x.
  Lemma hashes_mean_kid s o k c y : hashes_mean s o -> find_key k (lkids s) = Some c -> find_key k (lkids o) = Some y ->
    mean c y.
  Proof.
    intros H Hc Hy p t x Ht Hx E. apply (H (k :: p) t x); cbn [lookup]; [discriminate|now rewrite Hc|now rewrite Hy|assumption].
  Qed.
  Lemma mean_hashes c y : mean c y -> hashes_mean c y.
  Proof. intros H p t x _. apply H. Qed.

  Lemma gone_lookup : forall c y, gone m c y -> mean c y ->
    forall q t, lookup c q = Some t ->
      exists x, lookup y q = Some x /\ (ltext t = ltext x \/ (no_text t /\ lkids x <> [])).
  Proof.
    induction c as [ct ca cx ch cc cal ck IH] using lnode_kids_ind. set (t := LNode ct ca cx ch cc cal ck) in *.
    rewrite Forall_forall in IH. intros x G HM q u Hu.
    inversion G as [? ? E A|? ? Nb Nl Hg Ht A]; subst.
    - pose proof (HM [] t x eq_refl eq_refl E q) as HE. rewrite Hu in HE.
      destruct (lookup x q) as [v|]; [|contradiction]. exists v. auto.
    - destruct q as [|k q].
      + injection Hu as <-. exists x. split; [reflexivity|]. destruct Ht as [Ht|Ht]; [|now left]. right. split; [assumption|].
        destruct Nl as [Nl|Nl]; [|assumption]. destruct (lkids t) as [|c l]; [congruence|].
        destruct (Hg c (or_introl eq_refl)) as (y & Hy & _). intro E. rewrite E in Hy. discriminate.
      + cbn [lookup] in *. destruct (find_key k (lkids t)) as [c|] eqn:Ec; [|discriminate].
        pose proof (find_key_in _ _ _ Ec) as [Ic Lc]. destruct (Hg c Ic) as (y & Hy & Gy).
        rewrite Lc in Hy. rewrite Hy. apply (IH c Ic y Gy); [|assumption].
        eapply hashes_mean_kid; [apply mean_hashes; eassumption|eassumption|assumption].
  Qed.
  Lemma removed_lookup : forall s o p, removed m s o p -> hashes_mean s o -> forall t, lookup s p = Some t ->
    exists x, lookup o p = Some x /\ (ltext t = ltext x \/ (no_text t /\ lkids x <> [])).
  Proof.
    intros s o p R. induction R as [s o k p c y Hc Hy G|s o k p c y Hc Hy Nb Nh R IH]; intros HM t Ht;
      cbn [lookup] in *; rewrite Hc in Ht; rewrite Hy; pose proof (hashes_mean_kid _ _ _ _ _ HM Hc Hy) as M.
    - eapply gone_lookup; eassumption.
    - apply IH; [now apply mean_hashes|assumption].
  Qed.

  (** what goes is in the other document, with the same text *)
  Theorem C33_covered : forall s o p t, keyed s -> keyed o -> alts_keyed s -> alts_keyed o -> ~ is_blocked m s ->
    hashes_mean s o -> p <> [] -> lookup s p = Some t -> lookup (snd (difference o s)) p = None ->
    exists x, lookup o p = Some x /\ (ltext t = ltext x \/ (no_text t /\ lkids x <> [])).
  Proof.
    intros s o p t Ks Ko As Ao Nb HM Np Ht H.
    apply (removed_lookup s o p); [|assumption|assumption].
    apply C33_removed; try assumption. congruence.
  Qed.
  (** what the other document does not have stays *)
  Theorem C33_untouched : forall s o p t, keyed s -> keyed o -> alts_keyed s -> alts_keyed o -> ~ is_blocked m s ->
    hashes_mean s o -> p <> [] -> lookup s p = Some t -> lookup o p = None ->
    exists t', lookup (snd (difference o s)) p = Some t' /\ ltag t' = ltag t /\ lattrs t' = lattrs t /\
      ltext t' = ltext t /\ lalts t' = lalts t.
  Proof.
    intros s o p t Ks Ko As Ao Nb HM Np Ht Ho.
    destruct (lookup (snd (difference o s)) p) as [t'|] eqn:E.
    - destruct (C33_remaining s o p t' Ks Ko As Ao Nb Np E) as (t0 & H0 & F1 & F2 & F3 & _ & _ & F6).
      assert (t0 = t) by congruence. subst t0. exists t'. rewrite Ho in F6.
      destruct F6 as [F6|(a & a' & y & b & _ & _ & F & _)]; [|discriminate]. auto.
    - destruct (C33_covered s o p t Ks Ko As Ao Nb HM Np Ht E) as (x & Hx & _). congruence.
  Qed.
  (** the document element itself stays as it is, apart from its children *)
  Theorem C33_root : forall s o, ltag (snd (difference o s)) = ltag s /\ lattrs (snd (difference o s)) = lattrs s /\
    ltext (snd (difference o s)) = ltext s /\ lalts (snd (difference o s)) = lalts s.
  Proof. intros s o. pose proof (difference_stays o s) as [(H1 & H2 & H3 & H4 & H5) H6]. auto. Qed.
  (** the other document does not depend on what is taken out: and a document less itself is empty *)
  Theorem C33_self : forall s p, keyed s -> alts_keyed s -> ~ is_blocked m s -> p <> [] ->
    lookup (snd (difference s s)) p = None.
  Proof.
    intros s p Ks As Nb Np. destruct p as [|k p]; [congruence|].
    destruct (difference_lookup (k :: p) s s Ks Ks As As Nb Np) as (_ & H2 & H3).
    destruct (lookup s (k :: p)) as [t|] eqn:E.
    - apply H2. cbn [lookup] in E. destruct (find_key k (lkids s)) as [c|] eqn:Ec; [|discriminate].
      eapply removed_here; [eassumption|eassumption|]. apply gone_same; [reflexivity|].
      unfold alts_same. destruct (lalts c); [|exact I]. intros k' v Hv. eauto.
    - destruct (lookup (snd (difference s s)) (k :: p)) as [t'|]; [|reflexivity].
      destruct (H3 t' eq_refl) as (t & Ht & _). congruence.
  Qed.

  (** ** C34 *)
  (** what the elements at a place say, an empty text being no text *)
  Definition says (t : option lnode) : option pystr :=
    option_map (fun t => match ltext t with Some s => s | None => [] end) t.

  Lemma ew_impl (P Q : lnode -> Prop) : (forall x, P x -> Q x) -> forall n, everywhere P n -> everywhere Q n.
  Proof.
    intro H. induction n as [t a x h c al k IH] using lnode_kids_ind. intro E. rewrite Forall_forall in IH.
    constructor.
    - apply H. exact (ew_here _ _ E).
    - intros y Hy. apply IH; [assumption|]. exact (ew_kid _ _ _ E Hy).
  Qed.
  Lemma ew_lookup P : forall p n t, everywhere P n -> lookup n p = Some t -> P t.
  Proof.
    induction p as [|k p IH]; intros n t E H.
    - injection H as <-. exact (ew_here _ _ E).
    - cbn [lookup] in H. destruct (find_key k (lkids n)) as [c|] eqn:Ec; [|discriminate].
      pose proof (find_key_in _ _ _ Ec) as [Ic _]. exact (IH c t (ew_kid _ _ _ E Ic) H).
  Qed.
  Lemma equal_removed : forall p a b t x, everywhere (fun x => lalts x = None) a ->
    everywhere (fun x => ~ is_blocked m x) a -> p <> [] ->
    lookup a p = Some t -> lookup b p = Some x -> lch t = lch x -> removed m a b p.
  Proof.
    induction p as [|k p IH]; intros a b t x Na Nb Np Ht Hx E; [congruence|]. cbn [lookup] in *.
    destruct (find_key k (lkids a)) as [c|] eqn:Ec; [|discriminate].
    destruct (find_key k (lkids b)) as [y|] eqn:Ey; [|discriminate].
    pose proof (find_key_in _ _ _ Ec) as [Ic _].
    destruct (Z.eq_dec (lch c) (lch y)) as [Eh|Nh].
    - eapply removed_here; [eassumption|eassumption|]. apply gone_same; [assumption|].
      unfold alts_same. rewrite (ew_here _ _ (ew_kid _ _ _ Na Ic)). exact I.
    - destruct p as [|k2 p]; [cbn in Ht, Hx; congruence|].
      eapply removed_below; try eassumption; [exact (ew_here _ _ (ew_kid _ _ _ Nb Ic))|].
      eapply IH; try eassumption; [exact (ew_kid _ _ _ Na Ic)|exact (ew_kid _ _ _ Nb Ic)|discriminate].
  Qed.

  (** Taking out what the other document has and filling it in again leaves the same places with
      the same texts as filling in without taking out. *)
  Theorem C34_round_trip : forall a b, keyed a -> keyed b -> alts_keyed b ->
    everywhere (fun x => lalts x = None) a ->
    everywhere (fun x => ~ is_blocked m x) a -> everywhere (fun x => ~ is_blocked m x) b ->
    no_fonts b -> no_alias b ->
    everywhere (fun x => ltext x <> Some arrows) a ->
    everywhere (fun x => lkids x <> [] -> no_text x) b ->
    hashes_mean a b ->
    exists r r', overlay m b a = Ok r /\ overlay m b (snd (difference b a)) = Ok r' /\
      forall p, says (lookup r' p) = says (lookup r p).
  Proof.
    intros a b Ka Kb Ab Na Ba Bb Fb Alb Ar Mx HM. set (d := snd (difference b a)).
    assert (alts_keyed a) as Aa by (apply (ew_impl (fun x => lalts x = None)); [intros x ->; exact I|assumption]).
    pose proof (ew_here _ _ Ba) as Bra.
    assert (hashes_tell a b) as Ta.
    { intros p t x Np Ht Hx E q Hq. pose proof (HM p t x Np Ht Hx E q) as Q.
      destruct (lookup t q); [discriminate|]. destruct (lookup x q); [contradiction|congruence]. }
    assert (hashes_tell d b) as Td.
    { intros p t' x Np Ht Hx E q Hq. exfalso.
      destruct (C33_remaining a b p t' Ka Kb Aa Ab Bra Np Ht) as (t & H0 & _ & _ & _ & _ & F & _).
      assert (removed m a b p) as R by (eapply equal_removed; try eassumption; congruence).
      apply C33_removed in R; try assumption; [|congruence]. unfold d in Ht. congruence. }
    destruct (C31_union m a b Kb Fb Alb Ta Bb) as (r & E & U). destruct (C31_kept m a b Kb Fb) as (r1 & E1 & K).
    assert (r1 = r) by congruence. subst r1.
    destruct (C31_union m d b Kb Fb Alb Td Bb) as (r' & E' & U'). destruct (C31_kept m d b Kb Fb) as (r1 & E1' & K').
    assert (r1 = r') by congruence. subst r1.
    exists r, r'. split; [assumption|]. split; [assumption|]. intro p.
    assert (forall t, lookup a p = Some t -> exists u, lookup r p = Some u /\ ltext u = ltext t) as Ha.
    { intros t Ht. destruct (K p t Ht) as (u & Hu & _ & Tu & _). exists u. split; [assumption|].
      destruct Tu as [Tu|[Tu _]]; [assumption|]. exfalso. exact (ew_lookup _ _ _ _ Ar Ht Tu). }
    destruct (lookup d p) as [t'|] eqn:Ed.
    - assert (exists t, lookup a p = Some t /\ ltext t' = ltext t) as (t & Ht & Et).
      { destruct p as [|k p].
        - exists a. split; [reflexivity|]. injection Ed as <-. apply C33_root.
        - destruct (C33_remaining a b (k :: p) t' Ka Kb Aa Ab Bra ltac:(discriminate) Ed) as (t & H0 & _ & _ & F & _).
          eauto. }
      destruct (Ha t Ht) as (u & Hu & Tu). destruct (K' p t' Ed) as (u' & Hu' & _ & Tu' & _).
      rewrite Hu, Hu'. cbn [says option_map]. f_equal. rewrite Tu, <- Et.
      destruct Tu' as [->|[Tu' _]]; [reflexivity|]. exfalso. rewrite Et in Tu'. exact (ew_lookup _ _ _ _ Ar Ht Tu').
    - destruct (U' p) as [_ U2]. rewrite (U2 Ed).
      destruct (lookup a p) as [t|] eqn:Et.
      + destruct p as [|k p]; [discriminate|].
        destruct (C33_covered a b (k :: p) t Ka Kb Aa Ab Bra HM ltac:(discriminate) Et Ed) as (x & Hx & Tx).
        destruct (Ha t eq_refl) as (u & Hu & Tu). rewrite Hu, Hx. cbn [says option_map]. f_equal. rewrite Tu.
        destruct Tx as [->|[Nt Nx]]; [reflexivity|].
        pose proof (ew_lookup _ _ _ _ Mx Hx Nx) as Ex. cbv beta in Ex.
        destruct Nt as [-> | ->], Ex as [-> | ->]; reflexivity.
      + destruct (U p) as [_ U3]. rewrite (U3 Et). reflexivity.
  Qed.
End Difference.

(** * Examples *)

(** deciding the hypotheses for given documents *)
Fixpoint everywhereb (f : lnode -> bool) (n : lnode) : bool :=
  match n with LNode _ _ _ _ _ _ kids => (f n && forallb (everywhereb f) kids)%bool end.
Lemma everywhereb_ok f (P : lnode -> Prop) : (forall x, f x = true -> P x) -> forall n, everywhereb f n = true -> everywhere P n.
Proof.
  intro H. induction n as [t a x h c al k IH] using lnode_kids_ind. cbn [everywhereb]. intro E.
  apply Bool.andb_true_iff in E as [E1 E2]. rewrite Forall_forall in IH. rewrite forallb_forall in E2.
  constructor; [now apply H|]. intros y Hy. apply IH; auto.
Qed.
Fixpoint nodupb (l : list Z) : bool :=
  match l with [] => true | x :: l' => (negb (existsb (Z.eqb x) l') && nodupb l')%bool end.
Lemma nodupb_ok l : nodupb l = true -> NoDup l.
Proof.
  induction l as [|x l IH]; [constructor|]. cbn [nodupb]. intro H. apply Bool.andb_true_iff in H as [H1 H2].
  constructor; [|auto]. intro Hx. apply Bool.negb_true_iff in H1.
  assert (existsb (Z.eqb x) l = true) as E by (apply existsb_exists; exists x; split; [assumption|apply Z.eqb_refl]).
  congruence.
Qed.
Lemma keyed_ok n : everywhereb (fun x => nodupb (map lah (lkids x))) n = true -> keyed n.
Proof. apply everywhereb_ok. intros x. apply nodupb_ok. Qed.
Fixpoint agreeb (t x : lnode) : bool :=
  match t with
  | LNode _ _ text _ _ _ kids =>
      (opteq text (ltext x)
       && forallb (fun c => match find_key (lah c) (lkids x) with Some y => agreeb c y | None => false end) kids
       && forallb (fun y => match find_key (lah y) kids with Some _ => true | None => false end) (lkids x))%bool
  end.
Lemma agreeb_ok : forall q t x, agreeb t x = true ->
  match lookup t q, lookup x q with Some t', Some x' => ltext t' = ltext x' | None, None => True | _, _ => False end.
Proof.
  induction q as [|k q IH]; intros [tg at_ tx h ch al kids] x E; cbn [agreeb] in E;
    apply Bool.andb_true_iff in E as [E E3]; apply Bool.andb_true_iff in E as [E1 E2]; cbn [lookup lkids].
  - destruct (opteq_spec tx (ltext x)); [assumption|discriminate].
  - rewrite forallb_forall in E2, E3. destruct (find_key k kids) as [c|] eqn:Ec.
    + pose proof (find_key_in _ _ _ Ec) as [Ic Lc]. specialize (E2 c Ic). rewrite Lc in E2.
      destruct (find_key k (lkids x)) as [y|]; [|discriminate]. now apply IH.
    + destruct (find_key k (lkids x)) as [y|] eqn:Ey; [|exact I]. exfalso.
      pose proof (find_key_in _ _ _ Ey) as [Iy Ly]. specialize (E3 y Iy). rewrite Ly, Ec in E3. discriminate.
Qed.
Fixpoint meanb (s o : lnode) : bool :=
  match s with
  | LNode _ _ _ _ _ _ kids =>
      forallb (fun c => match find_key (lah c) (lkids o) with
                        | Some y => ((if Z.eqb (lch c) (lch y) then agreeb c y else true) && meanb c y)%bool
                        | None => true
                        end) kids
  end.
Lemma meanb_ok s o : meanb s o = true -> hashes_mean s o.
Proof.
  intros E p. revert s o E. induction p as [|k p IH]; intros [tg at_ tx h ch al kids] o E t x Np Ht Hx Eh; [congruence|].
  cbn [meanb] in E. rewrite forallb_forall in E. cbn [lookup lkids] in *.
  destruct (find_key k kids) as [c|] eqn:Ec; [|discriminate].
  destruct (find_key k (lkids o)) as [y|] eqn:Ey; [|discriminate].
  pose proof (find_key_in _ _ _ Ec) as [Ic Lc]. specialize (E c Ic). rewrite Lc, Ey in E.
  apply Bool.andb_true_iff in E as [E1 E2].
  destruct p as [|k2 p].
  - cbn in Ht, Hx. injection Ht as <-. injection Hx as <-. rewrite Eh, Z.eqb_refl in E1. intro q. now apply agreeb_ok.
  - exact (IH c y E2 t x ltac:(discriminate) Ht Hx Eh).
Qed.
Definition blockedb (m : meta) (x : lnode) : bool := memstr (ltag x) (m_blocks m).
Lemma unblocked_ok m n : everywhereb (fun x => negb (blockedb m x)) n = true -> everywhere (fun x => ~ is_blocked m x) n.
Proof.
  apply everywhereb_ok. intros x H B. apply Bool.negb_true_iff in H. apply memstr_iff in B. unfold blockedb in H. congruence.
Qed.
Lemma tag_not_ok t n : everywhereb (fun x => negb (streq (ltag x) t)) n = true -> everywhere (fun x => ltag x <> t) n.
Proof.
  apply everywhereb_ok. intros x H E. apply Bool.negb_true_iff in H. rewrite E, streq_refl in H. discriminate.
Qed.
Lemma text_not_ok t n : everywhereb (fun x => negb (opteq (ltext x) t)) n = true -> everywhere (fun x => ltext x <> t) n.
Proof.
  apply everywhereb_ok. intros x H E. apply Bool.negb_true_iff in H. destruct (opteq_spec (ltext x) t); congruence.
Qed.
Lemma no_alts_ok n : everywhereb (fun x => match lalts x with None => true | _ => false end) n = true ->
  everywhere (fun x => lalts x = None) n.
Proof. apply everywhereb_ok. intros x H. now destruct (lalts x). Qed.
Lemma no_alts_keyed n : everywhere (fun x => lalts x = None) n -> alts_keyed n.
Proof. apply ew_impl. intros x ->. exact I. Qed.
Lemma unmixed_ok n :
  everywhereb (fun x => match lkids x, ltext x with [], _ | _, None | _, Some [] => true | _, _ => false end) n = true ->
  everywhere (fun x => lkids x <> [] -> no_text x) n.
Proof.
  apply everywhereb_ok. intros x H N. unfold no_text. destruct (lkids x); [congruence|]. destruct (ltext x) as [[|]|]; auto; discriminate.
Qed.

Definition leaf (tag text : string) (ah ch : Z) : lnode := LNode (lit tag) [] (Some (lit text)) ah ch None [].
Definition branch (tag : string) (ah ch : Z) (kids : list lnode) : lnode := LNode (lit tag) [] None ah ch None kids.
(** a regional document and its parent: one quotation mark differs, the parent has more *)
Definition ex_region : lnode :=
  branch "ldml" 0 100
    [ branch "delimiters" 1 101 [leaf "quotationStart" "A" 2 65; leaf "quotationEnd" "B" 3 66];
      branch "characters" 4 102 [leaf "exemplarCharacters" "x" 5 120];
      leaf "own" "mine" 9 77 ].
Definition ex_parent : lnode :=
  branch "ldml" 0 200
    [ branch "delimiters" 1 201 [leaf "quotationStart" "A" 2 65; leaf "quotationEnd" "C" 3 67; leaf "more" "D" 6 68];
      branch "characters" 4 102 [leaf "exemplarCharacters" "x" 5 120];
      branch "dates" 7 203 [leaf "era" "e" 8 69] ].
Definition with_blocks (l : list pystr) : meta := {| m_keys := m_keys no_meta; m_nonkey := m_nonkey no_meta;
  m_key := m_key no_meta; m_attord := m_attord no_meta; m_maxats := m_maxats no_meta; m_elord := m_elord no_meta;
  m_maxels := m_maxels no_meta; m_attvals := m_attvals no_meta; m_serial := m_serial no_meta; m_blocks := l |}.
Definition ex_meta : meta := with_blocks [lit "identity"; lit "collation"].

Example C34_example :
  (keyed ex_region /\ keyed ex_parent /\ alts_keyed ex_parent /\ alts_keyed ex_region /\
   everywhere (fun x => lalts x = None) ex_region /\
   everywhere (fun x => ~ is_blocked ex_meta x) ex_region /\ everywhere (fun x => ~ is_blocked ex_meta x) ex_parent /\
   no_fonts ex_parent /\ no_alias ex_parent /\
   everywhere (fun x => ltext x <> Some arrows) ex_region /\
   everywhere (fun x => lkids x <> [] -> no_text x) ex_parent /\ hashes_mean ex_region ex_parent) /\
  snd (difference ex_meta ex_parent ex_region)
  = branch "ldml" 0 100 [ branch "delimiters" 1 101 [leaf "quotationEnd" "B" 3 66]; leaf "own" "mine" 9 77 ] /\
  overlay ex_meta ex_parent (snd (difference ex_meta ex_parent ex_region))
  = Ok (branch "ldml" 0 100
     [ branch "delimiters" 1 101 [leaf "quotationEnd" "B" 3 66; leaf "quotationStart" "A" 2 65; leaf "more" "D" 6 68];
       leaf "own" "mine" 9 77;
       branch "characters" 4 102 [leaf "exemplarCharacters" "x" 5 120];
       branch "dates" 7 203 [leaf "era" "e" 8 69] ]).
Proof.
  split; [|split; vm_compute; reflexivity].
  assert (everywhere (fun x => lalts x = None) ex_region) as N1 by (apply no_alts_ok; vm_compute; reflexivity).
  assert (everywhere (fun x => lalts x = None) ex_parent) as N2 by (apply no_alts_ok; vm_compute; reflexivity).
  split; [apply keyed_ok; vm_compute; reflexivity|].
  split; [apply keyed_ok; vm_compute; reflexivity|].
  split; [now apply no_alts_keyed|].
  split; [now apply no_alts_keyed|].
  split; [exact N1|].
  split; [apply unblocked_ok; vm_compute; reflexivity|].
  split; [apply unblocked_ok; vm_compute; reflexivity|].
  split; [apply tag_not_ok; vm_compute; reflexivity|].
  split; [apply tag_not_ok; vm_compute; reflexivity|].
  split; [apply text_not_ok; vm_compute; reflexivity|].
  split; [apply unmixed_ok; vm_compute; reflexivity|].
  apply meanb_ok; vm_compute; reflexivity.
Qed.

(** ** What does not hold *)

(** A blocked element that is the same in both is taken out but not filled in again. *)
Theorem C34_blocked_refuted : exists a b r r', keyed a /\ keyed b /\ alts_keyed b /\
  everywhere (fun x => lalts x = None) a /\ no_fonts b /\ no_alias b /\
  everywhere (fun x => ltext x <> Some arrows) a /\ everywhere (fun x => lkids x <> [] -> no_text x) b /\
  hashes_mean a b /\
  overlay ex_meta b a = Ok r /\ overlay ex_meta b (snd (difference ex_meta b a)) = Ok r' /\
  exists p, lookup r p <> None /\ lookup r' p = None.
Proof.
  set (a := branch "ldml" 0 100 [branch "collations" 1 101 [leaf "collation" "& a < b" 2 102; leaf "own" "x" 3 103]]).
  set (b := branch "ldml" 0 200 [branch "collations" 1 201 [leaf "collation" "& a < b" 2 102]]).
  exists a, b, a, (branch "ldml" 0 100 [branch "collations" 1 101 [leaf "own" "x" 3 103]]).
  split; [apply keyed_ok; vm_compute; reflexivity|].
  split; [apply keyed_ok; vm_compute; reflexivity|].
  split; [apply no_alts_keyed, no_alts_ok; vm_compute; reflexivity|].
  split; [apply no_alts_ok; vm_compute; reflexivity|].
  split; [apply tag_not_ok; vm_compute; reflexivity|].
  split; [apply tag_not_ok; vm_compute; reflexivity|].
  split; [apply text_not_ok; vm_compute; reflexivity|].
  split; [apply unmixed_ok; vm_compute; reflexivity|].
  split; [apply meanb_ok; vm_compute; reflexivity|].
  split; [vm_compute; reflexivity|]. split; [vm_compute; reflexivity|].
  exists [1; 2]%Z. split; [discriminate|reflexivity].
Qed.
(** An element left empty goes with its own attributes, which the other document does not have. *)
Theorem C34_attributes_refuted : exists a b r r', keyed a /\ keyed b /\ hashes_mean a b /\
  everywhere (fun x => ~ is_blocked ex_meta x) a /\ everywhere (fun x => ~ is_blocked ex_meta x) b /\
  overlay ex_meta b a = Ok r /\ overlay ex_meta b (snd (difference ex_meta b a)) = Ok r' /\
  exists p t t', lookup r p = Some t /\ lookup r' p = Some t' /\ lattrs t <> lattrs t'.
Proof.
  set (e := leaf "e" "x" 5 120).
  set (a := branch "ldml" 0 100 [LNode (lit "chars") [(lit "draft", lit "provisional")] None 1%Z 101%Z None [e]]).
  set (b := branch "ldml" 0 200 [branch "chars" 1 201 [e]]).
  exists a, b, a, (set_kids a (lkids b)).
  split; [apply keyed_ok; vm_compute; reflexivity|].
  split; [apply keyed_ok; vm_compute; reflexivity|].
  split; [apply meanb_ok; vm_compute; reflexivity|].
  split; [apply unblocked_ok; vm_compute; reflexivity|].
  split; [apply unblocked_ok; vm_compute; reflexivity|].
  split; [vm_compute; reflexivity|]. split; [vm_compute; reflexivity|].
  exists [1]%Z. do 2 eexists. split; [reflexivity|]. split; [reflexivity|]. discriminate.
Qed.
(** An element's alternates go with it where the other document has none. *)
Theorem C33_alternates_refuted : exists s o p t alts, keyed s /\ keyed o /\ alts_keyed s /\ alts_keyed o /\
  ~ is_blocked ex_meta s /\ hashes_mean s o /\ lookup s p = Some t /\ lalts t = Some alts /\
  (forall x, lookup o p = Some x -> lalts x = None) /\ alts <> [] /\
  lookup (snd (difference ex_meta o s)) p = None.
Proof.
  set (v := leaf "e" "other" 5 121).
  set (t := LNode (lit "e") [] (Some (lit "x")) 5%Z 120%Z (Some [(lit "proposed", v)]) []).
  exists (branch "ldml" 0 100 [t]), (branch "ldml" 0 100 [leaf "e" "x" 5 120]), [5]%Z, t, [(lit "proposed", v)].
  split; [apply keyed_ok; vm_compute; reflexivity|].
  split; [apply keyed_ok; vm_compute; reflexivity|].
  split.
  { apply (everywhereb_ok (fun x => match lalts x with Some [_] | None => true | _ => false end)); [|vm_compute; reflexivity].
    intros x H. destruct (lalts x) as [[|kv [|? ?]]|]; try discriminate; [|exact I]. constructor; [easy|constructor]. }
  split; [apply no_alts_keyed, no_alts_ok; vm_compute; reflexivity|].
  split; [intro H; apply memstr_iff in H; vm_compute in H; discriminate|].
  split; [apply meanb_ok; vm_compute; reflexivity|].
  split; [reflexivity|]. split; [reflexivity|].
  split; [intros x Hx; vm_compute in Hx; injection Hx as <-; reflexivity|]. split; [discriminate|reflexivity].
Qed.

(** ** C31 and C32: the same documents *)
Lemma mean_tell s o : hashes_mean s o -> hashes_tell s o.
Proof.
  intros HM p t x Np Ht Hx E q Hq. pose proof (HM p t x Np Ht Hx E q) as Q.
  destruct (lookup t q); [discriminate|]. destruct (lookup x q); [contradiction|congruence].
Qed.
Definition ex_arrows : lnode :=
  branch "ldml" 0 100 [ branch "delimiters" 1 101 [LNode (lit "quotationStart") [] (Some arrows) 2%Z 999%Z None []] ].
Example C31_example :
  keyed ex_parent /\ no_fonts ex_parent /\ no_alias ex_parent /\ hashes_tell ex_region ex_parent /\
  everywhere (fun x => ~ is_blocked ex_meta x) ex_parent /\
  overlay ex_meta ex_parent ex_region
  = Ok (branch "ldml" 0 100
     [ branch "delimiters" 1 101 [leaf "quotationStart" "A" 2 65; leaf "quotationEnd" "B" 3 66; leaf "more" "D" 6 68];
       branch "characters" 4 102 [leaf "exemplarCharacters" "x" 5 120];
       leaf "own" "mine" 9 77;
       branch "dates" 7 203 [leaf "era" "e" 8 69] ]) /\
  (exists t x, shared ex_meta ex_arrows ex_parent [1; 2]%Z t x /\ ltext t = Some arrows /\ ltext x = Some (lit "A")) /\
  lookup ex_region [7; 8]%Z = None /\ added ex_meta ex_region ex_parent [7; 8]%Z.
Proof.
  destruct C34_example as ((_ & H2 & _ & _ & _ & _ & H5 & H6 & H7 & _ & _ & H8) & _).
  split; [assumption|]. split; [assumption|]. split; [assumption|]. split; [now apply mean_tell|]. split; [assumption|].
  split; [vm_compute; reflexivity|].
  assert (forall t, memstr (ltag t) (m_blocks ex_meta) = false -> ~ is_blocked ex_meta t) as NB.
  { intros t E B. apply memstr_iff in B. congruence. }
  split.
  - eexists _, _. split; [|split].
    + eapply shared_below; [reflexivity|reflexivity|apply NB; reflexivity|discriminate|discriminate|].
      eapply shared_below; [reflexivity|reflexivity|apply NB; reflexivity|discriminate|discriminate|]. apply shared_here.
    + reflexivity.
    + reflexivity.
  - split; [reflexivity|]. eapply added_new; [reflexivity|reflexivity|apply NB; reflexivity|discriminate].
Qed.
Example C31_no_fonts_example : exists s o e, keyed o /\ shared ex_meta s o [] s o /\ In e (lkids o) /\
  ltag e = ext_tag /\ ~ is_blocked ex_meta e /\ find_key (lah e) (lkids s) = None.
Proof.
  exists ex_region, (branch "ldml" 0 200 [LNode ext_tag [] None 50%Z 51%Z None []]), (LNode ext_tag [] None 50%Z 51%Z None []).
  split; [apply keyed_ok; vm_compute; reflexivity|]. split; [constructor|]. split; [now left|]. split; [reflexivity|].
  split; [intro B; apply memstr_iff in B; vm_compute in B; discriminate|reflexivity].
Qed.
