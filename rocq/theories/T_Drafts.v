(** C23: the packing of alternates when a document is loaded. *)
From Coq Require Import String.
From Verif Require Import Py PyFacts M_LdmlBase M_Serialize M_Normalise M_Drafts.
Local Open Scope list_scope.
Local Open Scope nat_scope.

(** * Specification *)

(** the level of the draft of an element: the place of its name in the list of drafts, 5 for a
    name not in the list, and that of the default draft if the element has none *)
Definition has_level (dd : pystr) (c : lnode) (n : nat) : Prop :=
  match lget c (lit "draft") with
  | Some d => nth_error alldrafts n = Some d \/ (~ In d alldrafts /\ n = 5)
  | None => nth_error alldrafts n = Some dd
  end.
(** [x] is at least as good as [y], respectively better *)
Definition no_worse (dd : pystr) (x y : lnode) : Prop :=
  forall a b, has_level dd x a -> has_level dd y b -> a <= b.
Definition better (dd : pystr) (x y : lnode) : Prop :=
  forall a b, has_level dd x a -> has_level dd y b -> a < b.

(** [x], at position [i] among the siblings [cs], is the best of those with the same key and
    the same alt, and the first of the equally good ones *)
Definition best_for_alt (dd : pystr) (cs : list lnode) (i : nat) (x : lnode) : Prop :=
  nth_error cs i = Some x /\
  forall j y, nth_error cs j = Some y -> lah y = lah x -> lget y (lit "alt") = lget x (lit "alt") ->
    better dd x y \/ (no_worse dd x y /\ i <= j).

(** [out] is a packing of [cs]: [keep] lists the positions kept and [prim] maps each key to
    the position of the element that stands for it *)
Record packing (m : meta) (dd : pystr) (cs out : list lnode) (keep : list nat) (prim : Z -> option nat) : Prop := {
  pk_order : StronglySorted lt keep;
  pk_keep : forall i, In i keep <->
    exists c, nth_error cs i = Some c /\ (In (ltag c) (m_serial m) \/ prim (lah c) = Some i);
  pk_main : forall i c, nth_error cs i = Some c ->
    exists j p, prim (lah c) = Some j /\ best_for_alt dd cs j p /\ lah p = lah c /\
      (lget p (lit "alt") = None \/
       forall k y, nth_error cs k = Some y -> lah y = lah c ->
         lget y (lit "alt") <> None /\ no_worse dd p y);
  pk_out : Forall2 (fun i o => exists c, nth_error cs i = Some c /\
      ((prim (lah c) <> Some i /\ o = c) \/
       (prim (lah c) = Some i /\ exists alts, o = set_alts c (Some alts) /\ NoDup (dkeys alts) /\
          forall a x, In (a, x) alts <->
            exists j, best_for_alt dd cs j x /\ lah x = lah c /\
                      lget x (lit "alt") = Some a /\ lget c (lit "alt") <> Some a))) keep out
}.

(** * Proof *)
Lemma alldrafts_NoDup : NoDup alldrafts.
Proof.
  unfold alldrafts. repeat constructor; cbn [In]; intuition; try match goal with
  | H : lit _ = lit _ |- _ => apply streq_true in H; vm_compute in H; discriminate end.
Qed.
Lemma opteq_spec a b : reflect (a = b) (opteq a b).
Proof.
  destruct a as [a|], b as [b|]; cbn; try (constructor; congruence).
  destruct (streq_spec a b); constructor; congruence.
Qed.
Lemma Zeqb_spec a b : reflect (a = b) (Z.eqb a b).
Proof. apply Z.eqb_spec. Qed.

Lemma enum_from_get i l d n :
  dget streq (enum_from i l) d = Some n -> nth_error l (n - i) = Some d /\ i <= n.
Proof.
  revert i. induction l as [|x l IH]; intros i; cbn [enum_from dget]; [discriminate|].
  destruct (streq_spec d x) as [->|Nx].
  - intro E. injection E as <-. rewrite Nat.sub_diag. cbn. auto.
  - intro E. destruct (IH _ E) as [H1 H2]. replace (n - i) with (S (n - S i)) by lia. cbn.
    split; [assumption|lia].
Qed.
Lemma enum_from_none i l d : dget streq (enum_from i l) d = None -> ~ In d l.
Proof.
  revert i. induction l as [|x l IH]; intros i; cbn [enum_from dget]; [auto|].
  destruct (streq_spec d x) as [->|Nx]; [discriminate|].
  intros E [->|H]; [congruence|]. exact (IH _ E H).
Qed.
Lemma rating_get d n : dget streq draftratings d = Some n -> nth_error alldrafts n = Some d.
Proof. intro E. apply enum_from_get in E. rewrite Nat.sub_0_r in E. tauto. Qed.

Lemma level_spec dd c n : In dd alldrafts -> has_level dd c n <-> level dd c = n.
Proof.
  intro D. unfold has_level, level, get_draft, rating.
  assert (forall a b d, nth_error alldrafts a = Some d -> nth_error alldrafts b = Some d -> a = b) as U.
  { intros a b d Ha Hb. pose proof alldrafts_NoDup as ND. rewrite NoDup_nth_error in ND.
    apply ND; [|congruence]. apply nth_error_Some. congruence. }
  destruct (lget c (lit "draft")) as [d|] eqn:Ed.
  - destruct (dget streq draftratings d) as [k|] eqn:Ek.
    + apply rating_get in Ek. split.
      * intros [H|[H _]]; [eapply U; eassumption|]. apply nth_error_In in Ek. contradiction.
      * intros ->. now left.
    + apply enum_from_none in Ek. split.
      * intros [H|[_ H]]; [|congruence]. apply nth_error_In in H. contradiction.
      * intros <-. right. split; [assumption|reflexivity].
  - destruct (dget streq draftratings dd) as [k|] eqn:Ek.
    + apply rating_get in Ek. split; [intro H; eapply U; eassumption | intros <-; assumption].
    + apply enum_from_none in Ek. contradiction.
Qed.

Lemma no_worse_spec dd x y : In dd alldrafts -> no_worse dd x y <-> level dd x <= level dd y.
Proof.
  intro D. unfold no_worse. split.
  - intro H. apply H; apply level_spec; auto.
  - intros H a b Ha Hb. apply level_spec in Ha, Hb; auto. lia.
Qed.
Lemma better_spec dd x y : In dd alldrafts -> better dd x y <-> level dd x < level dd y.
Proof.
  intro D. unfold better. split.
  - intro H. apply H; apply level_spec; auto.
  - intros H a b Ha Hb. apply level_spec in Ha, Hb; auto. lia.
Qed.

Section Packing.
  Variable m : meta.
  Variable dd : pystr.
  Notation item := (nat * lnode)%type.
  Implicit Types (l : list item) (v : list (option pystr * item)).

  (** the outer dictionary sorts the items into groups *)
  Lemma fold_put_all l : forall temp h,
    dget Z.eqb (fold_left (put_all dd) l temp) h
    = match filter (fun x => Z.eqb (lah (snd x)) h) l with
      | [] => dget Z.eqb temp h
      | f => Some (fold_left (put dd) f (match dget Z.eqb temp h with Some v => v | None => [] end))
      end.
  Proof.
    induction l as [|x l IH]; intros temp h; [reflexivity|].
    cbn [fold_left filter]. rewrite IH. unfold put_all at 1 2.
    rewrite (dget_dset _ Zeqb_spec). rewrite (Z.eqb_sym h).
    destruct (Z.eqb_spec (lah (snd x)) h) as [<-|N].
    - cbn [fold_left].
      destruct (filter (fun x0 => Z.eqb (lah (snd x0)) (lah (snd x))) l) as [|y f]; reflexivity.
    - reflexivity.
  Qed.

  (** the entries of one group *)
  Definition beats (x y : item) : Prop :=
    level dd (snd x) < level dd (snd y)
    \/ (level dd (snd x) = level dd (snd y) /\ fst x <= fst y).
  Definition wins l a (x : item) : Prop :=
    In x l /\ lalt (snd x) = a /\ (forall y, In y l -> lalt (snd y) = a -> beats x y).
  Definition group_ok l v : Prop :=
    NoDup (dkeys v) /\ forall a,
      match dget opteq v a with
      | None => forall y, In y l -> lalt (snd y) <> a
      | Some x => wins l a x
      end.

  Lemma group_step l v x :
    group_ok l v -> (forall y, In y l -> fst y < fst x) -> group_ok (l ++ [x]) (put dd v x).
  Proof.
    intros [ND G] Lt. unfold put. set (a0 := lalt (snd x)).
    pose proof (G a0) as G0. destruct (dget opteq v a0) as [y|] eqn:E.
    - destruct (Nat.ltb_spec (level dd (snd x)) (level dd (snd y))) as [Hl|Hl].
      + split; [apply dset_NoDup; [apply opteq_spec|assumption]|].
        intro a. rewrite (dget_dset _ opteq_spec). destruct (opteq_spec a a0) as [->|Na].
        * split; [apply in_or_app; right; left; reflexivity|]. split; [reflexivity|].
          intros z Hz Az. apply in_app_iff in Hz as [Hz|[<-|[]]].
          -- left. destruct G0 as (_ & _ & G0). destruct (G0 z Hz Az) as [?|[? _]]; lia.
          -- right. split; lia.
        * specialize (G a). destruct (dget opteq v a) as [w|].
          -- destruct G as (G1 & G2 & G3). split; [apply in_or_app; now left|]. split; [assumption|].
             intros z Hz Az. apply in_app_iff in Hz as [Hz|[<-|[]]]; [auto|]. subst a0. congruence.
          -- intros z Hz. apply in_app_iff in Hz as [Hz|[<-|[]]]; [auto|]. subst a0. congruence.
      + split; [assumption|]. intro a. specialize (G a).
        destruct (opteq_spec a a0) as [->|Na].
        * rewrite E in *. destruct G0 as (G1 & G2 & G3).
          split; [apply in_or_app; now left|]. split; [assumption|].
          intros z Hz Az. apply in_app_iff in Hz as [Hz|[<-|[]]]; [auto|].
          specialize (Lt y G1). unfold beats. lia.
        * destruct (dget opteq v a) as [w|].
          -- destruct G as (G1 & G2 & G3). split; [apply in_or_app; now left|]. split; [assumption|].
             intros z Hz Az. apply in_app_iff in Hz as [Hz|[<-|[]]]; [auto|]. subst a0. congruence.
          -- intros z Hz. apply in_app_iff in Hz as [Hz|[<-|[]]]; [auto|]. subst a0. congruence.
    - split; [apply dset_NoDup; [apply opteq_spec|assumption]|].
      intro a. rewrite (dget_dset _ opteq_spec). destruct (opteq_spec a a0) as [->|Na].
      + split; [apply in_or_app; right; left; reflexivity|]. split; [reflexivity|].
        intros z Hz Az. apply in_app_iff in Hz as [Hz|[<-|[]]].
        * exfalso. exact (G0 z Hz Az).
        * right. split; lia.
      + specialize (G a). destruct (dget opteq v a) as [w|].
        * destruct G as (G1 & G2 & G3). split; [apply in_or_app; now left|]. split; [assumption|].
          intros z Hz Az. apply in_app_iff in Hz as [Hz|[<-|[]]]; [auto|]. subst a0. congruence.
        * intros z Hz. apply in_app_iff in Hz as [Hz|[<-|[]]]; [auto|]. subst a0. congruence.
  Qed.

  Lemma sorted_snoc (A : Type) (R : A -> A -> Prop) (l : list A) x :
    StronglySorted R (l ++ [x]) -> StronglySorted R l /\ forall y, In y l -> R y x.
  Proof.
    induction l as [|z l IH]; cbn; intro S; [split; [constructor|intros ? []]|].
    inversion S as [|? ? S' F]; subst. destruct (IH S') as [H1 H2]. rewrite Forall_app in F.
    destruct F as [F1 F2]. inversion F2; subst. split; [constructor; assumption|].
    intros y [<-|Hy]; auto.
  Qed.

  Lemma group_fold l : StronglySorted (fun x y : item => fst x < fst y) l ->
    group_ok l (fold_left (put dd) l []).
  Proof.
    induction l as [|x l IH] using rev_ind; intro S.
    - split; [constructor|]. intro a. cbn. intros ? [].
    - rewrite fold_left_app. cbn [fold_left].
      apply sorted_snoc in S as [S1 S2]. apply group_step; auto.
  Qed.

  Lemma best_entry_spec v : v <> [] -> exists e, best_entry dd v = Some e /\ In e v /\
    forall e', In e' v -> level dd (snd (snd e)) <= level dd (snd (snd e')).
  Proof.
    induction v as [|e v IH]; [congruence|]. intros _. cbn [best_entry].
    destruct v as [|e2 v].
    - exists e. cbn. split; [reflexivity|]. split; [now left|]. intros e' [<-|[]]. lia.
    - destruct IH as (e1 & E1 & I1 & L1); [congruence|]. rewrite E1.
      destruct (Nat.ltb_spec (level dd (snd (snd e1))) (level dd (snd (snd e)))) as [Hl|Hl].
      + exists e1. split; [reflexivity|]. split; [now right|].
        intros e' [<-|H]; [lia|auto].
      + exists e. split; [reflexivity|]. split; [now left|].
        intros e' [<-|H]; [lia|]. specialize (L1 e' H). lia.
  Qed.

  (** the element that stands for a group *)
  Lemma main_entry_spec l v x0 : group_ok l v -> In x0 l ->
    exists a x, main_entry dd v = Some (a, x) /\ dget opteq v a = Some x /\ wins l a x /\
      (a = None \/ forall y, In y l -> lalt (snd y) <> None /\ level dd (snd x) <= level dd (snd y)).
  Proof.
    intros [ND G] H0. unfold main_entry. pose proof (G None) as GN.
    destruct (dget opteq v None) as [x|] eqn:EN.
    - exists None, x. auto.
    - destruct (best_entry_spec v) as ([a x] & E & I & L).
      { intros ->. apply (G (lalt (snd x0)) x0 H0 eq_refl). }
      pose proof (dget_NoDup_In _ opteq_spec _ _ _ ND I) as Ea.
      pose proof (G a) as Ga. rewrite Ea in Ga.
      exists a, x. split; [assumption|]. split; [assumption|]. split; [assumption|].
      right. intros y Hy. split; [auto|].
      pose proof (G (lalt (snd y))) as Gy. destruct (dget opteq v (lalt (snd y))) as [w|] eqn:Ew.
      + destruct Gy as (W1 & W2 & W3). apply (dget_In _ opteq_spec) in Ew.
        specialize (L _ Ew). cbn in L. destruct (W3 y Hy eq_refl) as [?|[? _]]; lia.
      + exfalso. exact (Gy y Hy eq_refl).
  Qed.

  Lemma other_alts_spec a v : NoDup (dkeys v) ->
    NoDup (dkeys (other_alts a v)) /\
    forall k x, In (k, x) (other_alts a v) <->
      exists i, In (Some k, (i, x)) v /\ Some k <> a.
  Proof.
    intros ND. induction v as [|[k0 [i0 x0]] v IH].
    - cbn. split; [constructor|]. intros k x. split; [intros []|intros (i & [] & _)].
    - cbn [dkeys map fst] in ND. inversion ND as [|? ? Hn ND']; subst.
      destruct (IH ND') as [I1 I2]. clear IH. cbn [other_alts flat_map fst snd].
      fold (other_alts a v).
      assert (forall k x, In (k, x) (other_alts a v) -> k0 <> Some k) as Fr.
      { intros k x Hk -> . apply I2 in Hk as (i & Hi & _). apply Hn.
        change (In (fst (Some k, (i, x))) (map fst v)). now apply in_map. }
      destruct k0 as [k0|].
      + destruct (opteq_spec (Some k0) a) as [Ea|Na].
        * split; [assumption|]. intros k x. rewrite I2. cbn [In]. split.
          -- intros (i & Hi & Nk). exists i. auto.
          -- intros (i & [E|Hi] & Nk); [congruence|]. exists i. auto.
        * cbn [app dkeys map fst]. split.
          -- constructor; [|assumption]. intro H. apply in_map_iff in H as ([k x] & <- & Hk).
             exact (Fr _ _ Hk eq_refl).
          -- intros k x. cbn [In]. rewrite I2. split.
             ++ intros [E|(i & Hi & Nk)]; [|exists i; auto]. injection E as -> ->. exists i0. auto.
             ++ intros (i & [E|Hi] & Nk); [left|right; exists i; auto]. congruence.
      + cbn [app]. split; [assumption|]. intros k x. rewrite I2. cbn [In]. split.
        * intros (i & Hi & Nk). exists i. auto.
        * intros (i & [E|Hi] & Nk); [congruence|]. exists i. auto.
  Qed.

  (** positions *)
  Lemma items_In (cs : list lnode) s i c :
    In (i, c) (combine (seq s (List.length cs)) cs) <-> s <= i /\ nth_error cs (i - s) = Some c.
  Proof.
    revert s. induction cs as [|x cs IH]; intro s; cbn [List.length seq combine In].
    - split; [intros []|]. intros [_ H]. destruct (i - s); discriminate.
    - rewrite IH. split.
      + intros [E|[L H]].
        * injection E as -> ->. rewrite Nat.sub_diag. auto.
        * split; [lia|]. replace (i - s) with (S (i - S s)) by lia. assumption.
      + intros [L H]. destruct (Nat.eq_dec i s) as [->|N].
        * rewrite Nat.sub_diag in H. injection H as ->. now left.
        * right. split; [lia|]. replace (i - s) with (S (i - S s)) in H by lia. assumption.
  Qed.
  Lemma items_sorted (cs : list lnode) s :
    StronglySorted (fun x y : item => fst x < fst y) (combine (seq s (List.length cs)) cs).
  Proof.
    revert s. induction cs as [|x cs IH]; intro s; cbn [List.length seq combine]; constructor; auto.
    apply Forall_forall. intros [i c] H. apply items_In in H. cbn. lia.
  Qed.
  Lemma filter_sorted (A : Type) (R : A -> A -> Prop) p (l : list A) :
    StronglySorted R l -> StronglySorted R (filter p l).
  Proof.
    induction 1 as [|x l S IH F]; cbn; [constructor|]. destruct (p x); [|assumption].
    constructor; [assumption|]. rewrite Forall_forall in *. intros y Hy.
    apply filter_In in Hy. apply F. tauto.
  Qed.

  Variable cs : list lnode.
  Notation items := (combine (seq 0 (List.length cs)) cs).
  Notation temp := (fold_left (put_all dd) items []).
  Notation group h := (filter (fun x : item => Z.eqb (lah (snd x)) h) items).

  Lemma in_items i c : In (i, c) items <-> nth_error cs i = Some c.
  Proof. rewrite items_In, Nat.sub_0_r. intuition lia. Qed.
  Lemma in_group h i c : In (i, c) (group h) <-> nth_error cs i = Some c /\ lah c = h.
  Proof. rewrite filter_In, in_items. cbn. rewrite Z.eqb_eq. tauto. Qed.
  Lemma temp_get h : dget Z.eqb temp h
    = match group h with [] => None | _ => Some (fold_left (put dd) (group h) []) end.
  Proof. rewrite fold_put_all. cbn [dget]. destruct (group h); reflexivity. Qed.
  Lemma temp_ok h : group_ok (group h) (fold_left (put dd) (group h) []).
  Proof. apply group_fold, filter_sorted, items_sorted. Qed.

  Definition prim_of (h : Z) : option nat :=
    match dget Z.eqb temp h with
    | None => None
    | Some v => match main_entry dd v with Some (_, (j, _)) => Some j | None => None end
    end.
  Definition kept (x : item) : bool :=
    match prim_of (lah (snd x)) with
    | Some j => Nat.eqb (fst x) j || memstr (ltag (snd x)) (m_serial m)
    | None => true
    end.

  Lemma prim_some i c : nth_error cs i = Some c ->
    exists v a j p, dget Z.eqb temp (lah c) = Some v /\ v = fold_left (put dd) (group (lah c)) [] /\
      main_entry dd v = Some (a, (j, p)) /\
      dget opteq v a = Some (j, p) /\ wins (group (lah c)) a (j, p) /\ prim_of (lah c) = Some j /\
      (a = None \/ forall y, In y (group (lah c)) -> lalt (snd y) <> None /\ level dd p <= level dd (snd y)).
  Proof.
    intro H. assert (In (i, c) (group (lah c))) as Hg by (apply in_group; auto).
    destruct (main_entry_spec _ _ _ (temp_ok (lah c)) Hg) as (a & [j p] & E1 & E2 & E3 & E4).
    exists (fold_left (put dd) (group (lah c)) []), a, j, p.
    assert (dget Z.eqb temp (lah c) = Some (fold_left (put dd) (group (lah c)) [])) as ET.
    { rewrite temp_get. destruct (group (lah c)); [destruct Hg|reflexivity]. }
    unfold prim_of. rewrite ET, E1. auto 10.
  Qed.

  Lemma wins_best a j p h : In dd alldrafts -> wins (group h) a (j, p) ->
    best_for_alt dd cs j p /\ lah p = h /\ lalt p = a.
  Proof.
    intros D (W1 & W2 & W3). apply in_group in W1 as [W0 W1]. cbn in W2. subst a.
    split; [|auto]. split; [assumption|]. intros k y Hk Hh Ha.
    destruct (W3 (k, y)) as [L|[L1 L2]]; [apply in_group; split; congruence | exact Ha | |].
    - left. now apply better_spec.
    - right. split; [|exact L2]. apply no_worse_spec; [assumption|]. cbn in L1. lia.
  Qed.
  Lemma best_wins j p h : In dd alldrafts -> best_for_alt dd cs j p -> lah p = h ->
    wins (group h) (lalt p) (j, p).
  Proof.
    intros D [B1 B2] Hh. split; [apply in_group; auto|]. split; [reflexivity|].
    intros [k y] Hy Ay. apply in_group in Hy as [Hy1 Hy2]. cbn in Ay.
    destruct (B2 k y Hy1) as [L|[L1 L2]]; [congruence|exact Ay| |].
    - left. apply better_spec in L; assumption.
    - apply no_worse_spec in L1; [|assumption]. unfold beats. cbn. lia.
  Qed.
  Lemma wins_unique l a x y : wins l a x -> wins l a y ->
    (forall u w, In u l -> In w l -> fst u = fst w -> u = w) -> x = y.
  Proof.
    intros (X1 & X2 & X3) (Y1 & Y2 & Y3) U. apply U; auto.
    specialize (X3 y Y1 Y2). specialize (Y3 x X1 X2). unfold beats in *. lia.
  Qed.

  Lemma flat_place (l : list item) : (forall x, In x l -> nth_error cs (fst x) = Some (snd x)) ->
    Forall2 (fun x o => forall v resk j p, dget Z.eqb temp (lah (snd x)) = Some v ->
               main_entry dd v = Some (resk, (j, p)) ->
               o = if Nat.eqb (fst x) j then set_alts (snd x) (Some (other_alts resk v)) else snd x)
      (filter kept l) (flat_map (place m dd temp) l).
  Proof.
    induction l as [|[i c] l IH]; intro H; cbn [filter flat_map]; [constructor|].
    assert (nth_error cs i = Some c) as Hi by (apply (H (i, c)); now left).
    specialize (IH (fun x Hx => H x (or_intror Hx))).
    destruct (prim_some i c Hi) as (v & a & j & p & ET & _ & EM & _ & _ & EP & _).
    unfold kept at 1. cbn [fst snd]. rewrite EP. unfold place at 1. rewrite ET, EM.
    destruct (Nat.eqb i j) eqn:Eij; cbn [orb app].
    - constructor; [|assumption]. cbn [fst snd]. intros v' r' j' p' E1 E2.
      rewrite ET in E1. injection E1 as <-. rewrite EM in E2. injection E2 as <- <- <-.
      now rewrite Eij.
    - destruct (memstr (ltag c) (m_serial m)); cbn [app]; [|assumption].
      constructor; [|assumption]. cbn [fst snd]. intros v' r' j' p' E1 E2.
      rewrite ET in E1. injection E1 as <-. rewrite EM in E2. injection E2 as <- <- <-.
      now rewrite Eij.
  Qed.
End Packing.

Lemma Forall2_map_l (A B C : Type) (f : A -> B) (R : B -> C -> Prop) l l' :
  Forall2 (fun x => R (f x)) l l' -> Forall2 R (map f l) l'.
Proof. induction 1; cbn; constructor; auto. Qed.
Lemma Forall2_in_l (A B : Type) (R : A -> B -> Prop) (P : A -> Prop) l l' :
  Forall2 R l l' -> (forall x, In x l -> P x) -> Forall2 (fun x y => R x y /\ P x) l l'.
Proof. induction 1; intro H'; constructor; [split; [assumption|apply H'; now left]|apply IHForall2; intros; apply H'; now right]. Qed.
Lemma Forall2_weaken (A B : Type) (R S : A -> B -> Prop) l l' :
  (forall x y, R x y -> S x y) -> Forall2 R l l' -> Forall2 S l l'.
Proof. induction 2; constructor; auto. Qed.
Lemma memstr_iff x l : memstr x l = true <-> In x l.
Proof.
  unfold memstr. rewrite existsb_exists. split.
  - intros (y & Hy & E). apply streq_true in E. now subst.
  - intro H. exists x. split; [assumption|apply streq_refl].
Qed.

(** ** C23 *)
Theorem C23_packing : forall m dd cs, In dd alldrafts ->
  exists keep prim, packing m dd cs (pack_kids m dd cs) keep prim.
Proof.
  intros m dd cs D.
  set (items := combine (seq 0 (List.length cs)) cs).
  exists (map fst (filter (kept m dd cs) items)), (prim_of dd cs).
  assert (forall x, In x items -> nth_error cs (fst x) = Some (snd x)) as HI.
  { intros [i c] H. now apply in_items in H. }
  constructor.
  - assert (StronglySorted (fun x y : nat * lnode => fst x < fst y) (filter (kept m dd cs) items)) as S
      by apply filter_sorted, items_sorted.
    induction S as [|x l S IH F]; cbn; constructor; auto.
    rewrite Forall_map. exact F.
  - intro i. rewrite in_map_iff. split.
    + intros ([i' c] & <- & H). apply filter_In in H as [H1 H2]. apply in_items in H1.
      exists c. split; [assumption|]. unfold kept in H2. cbn in H2.
      destruct (prim_some dd cs i' c H1) as (v & a & j & p & _ & _ & _ & _ & _ & EP & _).
      rewrite EP in *. apply orb_true_iff in H2 as [H2|H2].
      * right. apply Nat.eqb_eq in H2. cbn. congruence.
      * left. now apply memstr_iff.
    + intros (c & H1 & H2). exists (i, c). split; [reflexivity|]. apply filter_In.
      split; [now apply in_items|]. unfold kept. cbn [fst snd].
      destruct (prim_of dd cs (lah c)) as [j|]; [|reflexivity]. apply orb_true_iff.
      destruct H2 as [H2|H2]; [right; now apply memstr_iff|left]. apply Nat.eqb_eq. congruence.
  - intros i c H.
    destruct (prim_some dd cs i c H) as (v & a & j & p & _ & _ & _ & _ & W & EP & Hm).
    destruct (wins_best dd cs a j p (lah c) D W) as (B1 & B2 & B3).
    exists j, p. split; [assumption|]. split; [assumption|]. split; [assumption|].
    destruct Hm as [->|Hm]; [left; exact B3|]. right. intros k y Hk Hy.
    destruct (Hm (k, y)) as [N L]; [apply in_group; auto|]. split; [exact N|].
    apply no_worse_spec; assumption.
  - apply Forall2_map_l. unfold pack_kids.
    pose proof (flat_place m dd cs items HI) as F.
    apply Forall2_in_l with (P := fun x => nth_error cs (fst x) = Some (snd x)) in F.
    2:{ intros x Hx. apply filter_In in Hx. apply HI. tauto. }
    eapply Forall2_weaken; [|exact F]. clear F. intros [i c] o [Ho Hi]. cbn [fst snd] in *.
    exists c. split; [assumption|].
    destruct (prim_some dd cs i c Hi) as (v & a & j & p & ET & Ev & EM & Eg & W & EP & Hm).
    specialize (Ho v a j p ET EM). rewrite EP. destruct (Nat.eqb_spec i j) as [->|Nij].
    2:{ left. split; congruence. }
    right. split; [reflexivity|]. exists (other_alts a v). split; [assumption|].
    assert (group_ok dd (filter (fun x => Z.eqb (lah (snd x)) (lah c)) items) v) as [ND G]
      by (rewrite Ev; apply temp_ok).
    destruct (other_alts_spec a v ND) as [O1 O2]. split; [assumption|].
    assert (p = c) as ->.
    { destruct W as (W1 & _). apply in_group in W1 as [W1 _]. congruence. }
    assert (lget c (lit "alt") = a) as Ea by (destruct W as (_ & W2 & _); exact W2).
    intros k x. rewrite O2. rewrite Ea. split.
    + intros (i & Hin & Nk). pose proof (dget_NoDup_In _ opteq_spec _ _ _ ND Hin) as E.
      specialize (G (Some k)). rewrite E in G.
      destruct (wins_best dd cs _ _ _ _ D G) as (B1 & B2 & B3). exists i. auto.
    + intros (i & B & Bh & Bk & Nk).
      pose proof (best_wins dd cs i x (lah c) D B Bh) as Wx. unfold lalt in Wx. rewrite Bk in Wx.
      specialize (G (Some k)). destruct (dget opteq v (Some k)) as [w|] eqn:E.
      * assert (w = (i, x)) as ->.
        { eapply wins_unique; [exact G|exact Wx|]. intros u1 w1 Hu Hw Euw.
          apply filter_In in Hu as [Hu _], Hw as [Hw _]. apply HI in Hu, Hw.
          destruct u1, w1. cbn in *. subst. congruence. }
        exists i. split; [now apply (dget_In _ opteq_spec)|congruence].
      * exfalso. destruct Wx as (W1 & W2 & _). exact (G _ W1 W2).
Qed.

(** Consequences in plain words. Without serial tags, no two elements kept have the same key
    (and so exactly one is kept for each key, by the next theorem). *)
Lemma Forall2_nth_r (A B : Type) (R : A -> B -> Prop) l l' i y :
  Forall2 R l l' -> nth_error l' i = Some y -> exists x, nth_error l i = Some x /\ R x y.
Proof.
  intro F. revert i. induction F as [|a b l l' Hab F IH]; intros [|i]; cbn; try discriminate.
  - intro E. injection E as <-. eauto.
  - apply IH.
Qed.
Lemma Forall2_in_ex (A B : Type) (R : A -> B -> Prop) l l' x :
  Forall2 R l l' -> In x l -> exists y, In y l' /\ R x y.
Proof.
  induction 1 as [|a b l l' Hab F IH]; intros []; subst; [exists b; cbn; auto|].
  destruct IH as (y & Hy & Ry); [assumption|]. exists y. cbn. auto.
Qed.
Lemma set_alts_fields c a :
  ltag (set_alts c a) = ltag c /\ lattrs (set_alts c a) = lattrs c /\ ltext (set_alts c a) = ltext c /\
  lah (set_alts c a) = lah c /\ lch (set_alts c a) = lch c /\ lalts (set_alts c a) = a /\
  lkids (set_alts c a) = lkids c.
Proof. destruct c. cbn. auto 10. Qed.

Theorem C23_one_per_key : forall m dd cs i j x y, In dd alldrafts ->
  (forall c, In c cs -> ~ In (ltag c) (m_serial m)) ->
  nth_error (pack_kids m dd cs) i = Some x -> nth_error (pack_kids m dd cs) j = Some y ->
  lah x = lah y -> i = j.
Proof.
  intros m dd cs i j x y D NS Hx Hy E.
  destruct (C23_packing m dd cs D) as (keep & prim & [P1 P2 P3 P4]).
  assert (NoDup keep) as ND.
  { clear -P1. induction P1 as [|a l S IH F]; constructor; [|assumption].
    intro H. rewrite Forall_forall in F. specialize (F _ H). lia. }
  assert (forall i o, nth_error (pack_kids m dd cs) i = Some o ->
            exists k, nth_error keep i = Some k /\ prim (lah o) = Some k) as H.
  { intros i' o Ho. destruct (Forall2_nth_r _ _ _ _ _ _ _ P4 Ho) as (k & Hk & c & Hc & Hcase).
    exists k. split; [assumption|].
    assert (In k keep) as Hin by (eapply nth_error_In; eassumption).
    apply P2 in Hin as (c' & Hc' & [Hs|Hp]).
    - exfalso. apply (NS c'); [eapply nth_error_In; eassumption|assumption].
    - assert (c' = c) by congruence. subst c'.
      destruct Hcase as [[Hn _]|[_ (al & -> & _)]]; [contradiction|].
      destruct c; exact Hp. }
  destruct (H i x Hx) as (k & Hk & Pk). destruct (H j y Hy) as (k' & Hk' & Pk').
  rewrite E in Pk. assert (k = k') by congruence. subst k'.
  rewrite NoDup_nth_error in ND. apply ND; [apply nth_error_Some; congruence|congruence].
Qed.

(** For every element of the siblings, the element that stands for its key or one of the
    alternates of that element has the same key and alt and is at least as good. *)
Theorem C23_nothing_lost : forall m dd cs c, In dd alldrafts -> In c cs ->
  exists o, In o (pack_kids m dd cs) /\ lah o = lah c /\
    ((lget o (lit "alt") = lget c (lit "alt") /\ no_worse dd o c) \/
     exists alts a x, lalts o = Some alts /\ lget c (lit "alt") = Some a /\ In (a, x) alts /\
       In x cs /\ lah x = lah c /\ lget x (lit "alt") = Some a /\ no_worse dd x c).
Proof.
  intros m dd cs c D Hc. apply In_nth_error in Hc as [i Hi].
  destruct (C23_packing m dd cs D) as (keep & prim & [P1 P2 P3 P4]).
  destruct (P3 i c Hi) as (j & p & Hj & B & Hp & _).
  assert (In j keep) as Hk. { apply P2. exists p. split; [apply B|]. right. now rewrite Hp. }
  destruct (Forall2_in_ex _ _ _ _ _ _ P4 Hk) as (o & Ho & c' & Hc' & Hcase).
  assert (c' = p) by (destruct B; congruence). subst c'.
  destruct Hcase as [[Hn _]|[_ (al & -> & ND & Hal)]]; [congruence|].
  exists (set_alts p (Some al)). split; [assumption|].
  destruct (set_alts_fields p (Some al)) as (F1 & F2 & F3 & F4 & F5 & F6 & F7).
  rewrite F4. split; [assumption|].
  assert (forall z, lget z (lit "alt") = lget c (lit "alt") -> lah z = lah c ->
           forall k, best_for_alt dd cs k z -> no_worse dd z c) as W.
  { intros z Hz1 Hz2 k [_ Bz]. destruct (Bz i c Hi) as [L|[L _]]; [congruence|congruence| |assumption].
    intros a b Ha Hb. specialize (L a b Ha Hb). lia. }
  destruct (opteq_spec (lget p (lit "alt")) (lget c (lit "alt"))) as [Ea|Na].
  - left. assert (lget (set_alts p (Some al)) (lit "alt") = lget p (lit "alt")) as Eg
      by (unfold lget; now rewrite F2).
    split; [congruence|]. pose proof (W p Ea Hp j B) as L. intros a b Ha Hb. apply L; [|assumption].
    unfold has_level, lget in *. now rewrite F2 in Ha.
  - right. exists al.
    (* the best of those with the alt of c *)
    destruct (temp_ok dd cs (lah c)) as [_ G]. specialize (G (lget c (lit "alt"))).
    destruct (dget opteq _ (lget c (lit "alt"))) as [[k x]|].
    2:{ exfalso. apply (G (i, c)); [apply in_group; auto|reflexivity]. }
    destruct (wins_best dd cs _ _ _ _ D G) as (Bx & Hx & Ax).
    destruct (lget c (lit "alt")) as [a|] eqn:Ec.
    + exists a, x. split; [assumption|]. split; [reflexivity|]. split; [|].
      { apply Hal. exists k. rewrite Hp. auto. }
      split; [destruct Bx as [Bx _]; eapply nth_error_In; eassumption|].
      split; [assumption|]. split; [assumption|]. eapply W; eassumption.
    + exfalso. destruct (P3 i c Hi) as (j' & p' & Hj' & B' & Hp' & Hm).
      assert (j' = j) by congruence. subst j'. assert (p' = p) by (destruct B, B'; congruence).
      subst p'. destruct Hm as [Hm|Hm]; [congruence|].
      destruct (Hm i c Hi eq_refl) as [Hm' _]. congruence.
Qed.

(** Packing has no influence on the hashes: they are those of the normalised document. *)
Lemma load_shell ws lower hasher m dd ud n :
  shell (load ws lower hasher m dd ud n) = Node (ntag n) (nattrs n) None [].
Proof. destruct n as [t a x k]. cbn [load ntag nattrs]. destruct (calc_hashes _ _ _ _ _ _ _). reflexivity. Qed.
Lemma isort_map (A B : Type) (f : A -> B) (leA : A -> A -> bool) (leB : B -> B -> bool) l :
  (forall x y, leB (f x) (f y) = leA x y) -> isort leB (map f l) = map f (isort leA l).
Proof.
  intro H. induction l as [|x l IH]; cbn [isort map]; [reflexivity|]. rewrite IH.
  generalize (isort leA l) as s. induction s as [|y s IHs]; cbn [insert map]; [reflexivity|].
  rewrite H. destruct (leA x y); [reflexivity|]. cbn [map]. now rewrite IHs.
Qed.

From Verif Require Import T_LdmlHash.
Theorem C23_hashes : forall ws lower hasher m dd ud n,
  lah (load ws lower hasher m dd ud n) = attr_hash hasher m ud (normalise ws lower m n) /\
  lch (load ws lower hasher m dd ud n) = content_hash hasher m ud (normalise ws lower m n).
Proof.
  intros ws lower hasher m dd ud. induction n as [t a x k IH] using node_ind'.
  unfold attr_hash, content_hash. cbn [load normalise node_hashes].
  rewrite (isort_map _ _ (load ws lower hasher m dd ud) (el_leb lower m t)).
  2:{ intros u v. rewrite !load_shell. destruct u, v. reflexivity. }
  rewrite (isort_map _ _ (normalise ws lower m) (el_leb lower m t)).
  2:{ intros [] []. reflexivity. }
  rewrite !map_map.
  assert (map (fun x0 => lch (load ws lower hasher m dd ud x0)) (isort (el_leb lower m t) k)
          = map (fun x0 => snd (node_hashes hasher m ud (normalise ws lower m x0)))
              (isort (el_leb lower m t) k)) as E.
  { apply map_ext_in. intros y Hy. apply (Permutation_in _ (Permutation_sym (isort_perm _ _))) in Hy.
    rewrite Forall_forall in IH. apply IH, Hy. }
  rewrite E. destruct (calc_hashes _ _ _ _ _ _ _) as [p q]. auto.
Qed.

(** A case: three months, one of them three times with different drafts and alts. *)
Definition mk (t : string) (draft alt : string) (text : string) (h : Z) : lnode :=
  LNode (lit t) ((if streq (lit draft) [] then [] else [(lit "draft", lit draft)])
                 ++ (if streq (lit alt) [] then [] else [(lit "alt", lit alt)]))
        (Some (lit text)) h h None [].
Definition no_meta : meta :=
  {| m_keys := []; m_nonkey := []; m_key := []; m_attord := []; m_maxats := 0; m_elord := [];
     m_maxels := 0; m_attvals := []; m_serial := [lit "rule"]; m_blocks := [] |}.
Definition ex_siblings : list lnode :=
  [ mk "month" "unconfirmed" "proposed" "jan" 1; mk "month" "approved" "x" "Jan" 1;
    mk "month" "contributed" "proposed" "jan." 1; mk "month" "" "" "feb" 2;
    mk "month" "approved" "y" "Feb" 2; mk "rule" "" "" "a" 3; mk "rule" "" "" "b" 3 ].
Example C23_example :
  pack_kids no_meta (lit "unconfirmed") ex_siblings
  = [ set_alts (mk "month" "approved" "x" "Jan" 1) (Some [(lit "proposed", mk "month" "contributed" "proposed" "jan." 1)]);
      set_alts (mk "month" "" "" "feb" 2) (Some [(lit "y", mk "month" "approved" "y" "Feb" 2)]);
      set_alts (mk "rule" "" "" "a" 3) (Some []); mk "rule" "" "" "b" 3 ]
  /\ In (lit "unconfirmed") alldrafts.
Proof. split; [vm_compute; reflexivity|]. cbn [alldrafts In]. auto. Qed.
