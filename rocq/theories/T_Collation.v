(** Properties C05-C12: collation tailorings, sort keys, DUCET. Specification and theorems. *)
From Verif Require Import Py PyFacts M_UnicodeSets P_UnicodeSets M_Collation P_CollEsc P_Collation P_Collation2.
Open Scope N_scope.

(** * C05 *)
(** somewhere in [s] a backslash is directly followed by U and 8, or u and 4, upper case hex
    digits *)
Definition contains_hex_escape (s : pystr) : Prop :=
  exists before h after, forallb is_upper_hex h = true /\
    ((s = before ++ [92; 85] ++ h ++ after /\ length h = 8%nat) \/
     (s = before ++ [92; 117] ++ h ++ after /\ length h = 4%nat)).

Lemma contains_occurs s : contains_hex_escape s <-> occurs s.
Proof.
  split.
  - intros (p & h & t & Hh & [[-> Hl]|[-> Hl]]).
    + exists p, (85 :: h ++ t). split; [reflexivity|]. exists h, t. auto.
    + exists p, (117 :: h ++ t). split; [reflexivity|]. exists h, t. auto.
  - intros (p & q & -> & h & t & Hh & [[-> Hl]|[-> Hl]]); exists p, h, t; auto.
Qed.

Theorem C05_unescape_escape : forall (is_mark : N -> bool) (s : pystr),
  coll_unescape (coll_escape is_mark false s) = Ok s <-> ~ contains_hex_escape s.
Proof. intros. rewrite contains_occurs. apply escape_roundtrip. Qed.
Print Assumptions C05_unescape_escape.
Example C05_nontrivial :
  ~ contains_hex_escape (lit "a'\u12") /\ coll_escape (fun _ => false) false (lit "a'\u12") = lit "a''\\u12".
Proof.
  split; [|reflexivity]. now apply (C05_unescape_escape (fun _ => false)).
Qed.

(** with allchars=True and no combining mark in the text, nothing changes *)
Theorem C05_allchars_no_marks : forall (is_mark : N -> bool) (s : pystr),
  (forall c, In c s -> is_mark c = false) ->
  (coll_unescape (coll_escape is_mark true s) = Ok s <-> ~ contains_hex_escape s).
Proof.
  intros im s H.
  replace (coll_escape im true s) with (coll_escape im false s); [apply C05_unescape_escape|].
  unfold coll_escape. generalize false at 2 3. induction s as [|k s IH]; intros lb; [reflexivity|].
  cbn [coll_escape_aux]. rewrite (H k) by now left. rewrite orb_true_r.
  rewrite !IH by (intros; apply H; now right). reflexivity.
Qed.
Print Assumptions C05_allchars_no_marks.

(** allchars=True: an isolated mark whose code has a lower case hex digit is not read back,
    nor is the third of three isolated marks *)
Theorem C05_allchars_lower_case_digit_refuted : forall (is_mark : N -> bool),
  is_mark 0x36F = true -> coll_unescape (coll_escape is_mark true [0x36F]) = Ok (lit "u036f").
Proof. intros im H. unfold coll_escape. cbn [coll_escape_aux]. rewrite H. reflexivity. Qed.
Theorem C05_allchars_third_mark_refuted : forall (is_mark : N -> bool),
  is_mark 0x300 = true -> is_mark 0x301 = true -> is_mark 0x302 = true ->
  coll_unescape (coll_escape is_mark true [0x300; 0x301; 0x302]) = Ok (0x300 :: 0x301 :: lit "u0302").
Proof. intros im H1 H2 H3. unfold coll_escape. cbn [coll_escape_aux]. rewrite H1, H2, H3. reflexivity. Qed.
Print Assumptions C05_allchars_third_mark_refuted.

(** * C06: specification of the order *)
Section OrderSpec.
  Context {W : Type} (lt : W -> W -> Prop) (zero : W).
  (** [t] is [l] without its trailing zeros *)
  Definition trimmed (l t : list W) : Prop :=
    (exists n, l = t ++ repeat zero n) /\ ~ exists u, t = u ++ [zero].
  (** lexicographic order of lists *)
  Definition lex_lt (x y : list W) : Prop :=
    (exists c r, y = x ++ c :: r) \/
    (exists p c d r r', x = p ++ c :: r /\ y = p ++ d :: r' /\ lt c d).
  (** equal up to trailing zeros *)
  Definition same_level (x y : list W) : Prop := exists t, trimmed x t /\ trimmed y t.
  Definition level_lt (x y : list W) : Prop := exists t u, trimmed x t /\ trimmed y u /\ lex_lt t u.
  (** [a] and [b] first differ at level [i] (0, 1, 2), where [a] is smaller *)
  Definition differ_at (i : nat) (a b : list (list W)) : Prop :=
    (i < 3)%nat /\ (forall j, (j < i)%nat -> same_level (nth j a []) (nth j b [])) /\
    level_lt (nth i a []) (nth i b []).
  Definition equivalent (a b : list (list W)) : Prop :=
    forall j, (j < 3)%nat -> same_level (nth j a []) (nth j b []).
End OrderSpec.

(** weights: any type with a three way comparison for a strict total order *)
Definition lawful {W} (wcmp : W -> W -> comparison) (lt : W -> W -> Prop) : Prop :=
  (forall x y, CompareSpec (x = y) (lt x y) (lt y x) (wcmp x y)) /\
  (forall x, ~ lt x x) /\ (forall x y z, lt x y -> lt y z -> lt x z).

Section OrderProofs.
  Context {W : Type} (wcmp : W -> W -> comparison) (lt : W -> W -> Prop) (zero : W).
  Hypothesis L : lawful wcmp lt.
  Lemma law_eq x y : wcmp x y = Eq <-> x = y.
  Proof.
    destruct L as (S & I & T). split; intros H.
    - destruct (S x y); congruence.
    - subst y. destruct (S x x) as [|X|X]; [reflexivity|now apply I in X..].
  Qed.
  Lemma law_lt x y : wcmp x y = Lt <-> lt x y.
  Proof.
    destruct L as (S & I & T). split; intros H; destruct (S x y) as [X|X|X]; auto; try congruence.
    - subst y. now apply I in H.
    - exfalso. exact (I _ (T _ _ _ H X)).
  Qed.
  Lemma law_antisym x y : wcmp y x = CompOpp (wcmp x y).
  Proof.
    destruct (wcmp x y) eqn:E; cbn.
    - apply law_eq in E as ->. now apply law_eq.
    - destruct (wcmp y x) eqn:E2; [apply law_eq in E2 as ->|apply law_lt in E, E2|reflexivity].
      + apply law_lt in E. now apply L in E.
      + exfalso. eapply (proj1 (proj2 L)). eapply (proj2 (proj2 L)); eassumption.
    - apply law_lt. destruct L as (S & I & T). destruct (S x y) as [X|X|X]; try congruence.
      all: try (subst; exfalso; discriminate).
  Qed.
  Lemma law_trans x y z : wcmp x y = Lt -> wcmp y z = Lt -> wcmp x z = Lt.
  Proof. rewrite !law_lt. apply L. Qed.

  Notation sz := (stripzero wcmp zero).
  Lemma trimmed_sz l : trimmed zero l (sz l).
  Proof. destruct (sz_spec wcmp zero law_eq l) as [A B]. split; assumption. Qed.
  Lemma trimmed_unique l t : trimmed zero l t -> t = sz l.
  Proof. intros [(n & ->) H]. symmetry. apply sz_app; [apply law_eq|exact H]. Qed.
  Lemma same_level_sz x y : same_level zero x y <-> sz x = sz y.
  Proof.
    split.
    - intros (t & H1 & H2). apply trimmed_unique in H1, H2. congruence.
    - intros H. exists (sz x). split; [|rewrite H]; apply trimmed_sz.
  Qed.
  Lemma level_lt_sz x y : level_lt lt zero x y <-> lcmp wcmp (sz x) (sz y) = Lt.
  Proof.
    rewrite (lcmp_lt_iff wcmp law_eq). split.
    - intros (t & u & H1 & H2 & H). apply trimmed_unique in H1, H2. subst t u.
      destruct H as [(c & r & E)|(p & c & d & r & r' & E1 & E2 & H)].
      + exists (sz x). left. exists c, r. auto.
      + exists p. right. exists c, r, d, r'. rewrite law_lt. auto.
    - intros (p & H). exists (sz x), (sz y). repeat split; try apply trimmed_sz.
      destruct H as [(c & r & E1 & E2)|(c & r & d & r' & E1 & E2 & H)].
      + left. exists c, r. now rewrite E1.
      + right. exists p, c, d, r, r'. apply law_lt in H. auto.
  Qed.
  Lemma level_trich x y : level_lt lt zero x y \/ same_level zero x y \/ level_lt lt zero y x.
  Proof.
    rewrite !level_lt_sz, same_level_sz. rewrite (lcmp_antisym wcmp law_antisym (sz x) (sz y)).
    destruct (lcmp wcmp (sz x) (sz y)) eqn:E; cbn; auto. apply lcmp_eq in E; [auto|apply law_eq].
  Qed.
End OrderProofs.

(** diffLevel reports the first differing level, signed; 4 when the keys are equivalent.
    These three cases exclude each other and are exhaustive. *)
Theorem C06_difference_level :
  forall W (wcmp : W -> W -> comparison) (lt : W -> W -> Prop) (zero : W) (a b : list (list W)),
    lawful wcmp lt -> length a = 3%nat -> length b = 3%nat ->
    (exists i, differ_at lt zero i a b /\ diffLevel wcmp zero (Some a) (Some b) = Ok (Z.of_nat i + 1)%Z) \/
    (exists i, differ_at lt zero i b a /\ diffLevel wcmp zero (Some a) (Some b) = Ok (- (Z.of_nat i + 1))%Z) \/
    (equivalent zero a b /\ diffLevel wcmp zero (Some a) (Some b) = Ok 4%Z).
Proof.
  intros W wcmp lt zero a b L Ha Hb.
  apply len3 in Ha as (a0 & a1 & a2 & ->). apply len3 in Hb as (b0 & b1 & b2 & ->).
  unfold diffLevel. cbn [diff_from level nth_error bind].
  pose proof (fun x y => lcmp_antisym wcmp (law_antisym wcmp lt L) x y) as AS.
  pose proof (fun x y => proj2 (level_lt_sz wcmp lt zero L x y)) as LT.
  pose proof (fun x y H => proj2 (same_level_sz wcmp lt zero L x y) (proj1 (lcmp_eq wcmp (law_eq wcmp lt L) _ _) H)) as EQ.
  destruct (lcmp wcmp (stripzero wcmp zero a0) (stripzero wcmp zero b0)) eqn:E0.
  2:{ left. exists 0%nat. split; [|reflexivity]. repeat split; [lia|lia|]. now apply LT. }
  2:{ right; left. exists 0%nat. split; [|reflexivity]. repeat split; [lia|lia|]. apply LT. cbn [nth]. now rewrite AS, E0. }
  destruct (lcmp wcmp (stripzero wcmp zero a1) (stripzero wcmp zero b1)) eqn:E1.
  2:{ left. exists 1%nat. split; [|reflexivity]. repeat split; [lia| |now apply LT].
      intros [|j] Hj; [now apply EQ|lia]. }
  2:{ right; left. exists 1%nat. split; [|reflexivity]. repeat split; [lia| |apply LT; cbn [nth]; now rewrite AS, E1].
      intros [|j] Hj; [|lia]. apply EQ. cbn [nth]. now rewrite AS, E0. }
  destruct (lcmp wcmp (stripzero wcmp zero a2) (stripzero wcmp zero b2)) eqn:E2.
  - right; right. split; [|reflexivity]. intros [|[|[|j]]] Hj; try lia; now apply EQ.
  - left. exists 2%nat. split; [|reflexivity]. repeat split; [lia| |now apply LT].
    intros [|[|j]] Hj; try lia; now apply EQ.
  - right; left. exists 2%nat. split; [|reflexivity]. repeat split; [lia| |apply LT; cbn [nth]; now rewrite AS, E2].
    intros [|[|j]] Hj; try lia; apply EQ; cbn [nth]; now rewrite AS, ?E0, ?E1.
Qed.
Print Assumptions C06_difference_level.

(** the sign is antisymmetric (4 stays 4) *)
Theorem C06_difference_sign :
  forall W (wcmp : W -> W -> comparison) (lt : W -> W -> Prop) (zero : W) (a b : list (list W)),
    lawful wcmp lt -> length a = 3%nat -> length b = 3%nat ->
    exists z, diffLevel wcmp zero (Some a) (Some b) = Ok z /\
      ((z = 4%Z /\ diffLevel wcmp zero (Some b) (Some a) = Ok 4%Z) \/
       ((1 <= Z.abs z <= 3)%Z /\ diffLevel wcmp zero (Some b) (Some a) = Ok (- z)%Z)).
Proof.
  intros W wcmp lt zero a b L Ha Hb.
  destruct (diff_val wcmp zero (law_antisym wcmp lt L) a b Ha Hb) as (z & E & E' & H).
  exists z. split; [exact E|]. rewrite E'. destruct (kcmp wcmp zero a b); [left|right|right].
  - subst z. auto.
  - replace (z =? 4)%Z with false by (symmetry; apply Z.eqb_neq; lia). split; [lia|reflexivity].
  - replace (z =? 4)%Z with false by (symmetry; apply Z.eqb_neq; lia). split; [lia|reflexivity].
Qed.
Print Assumptions C06_difference_sign.

(** [a < b] says exactly: some level differs first, and [a] is smaller there. It never raises. *)
Theorem C06_less_than :
  forall W (wcmp : W -> W -> comparison) (lt : W -> W -> Prop) (zero : W) (a b : list (list W)),
    lawful wcmp lt -> length a = 3%nat -> length b = 3%nat ->
    exists r, sk_lt wcmp zero a (Some b) = Ok r /\ (r = true <-> exists i, differ_at lt zero i a b).
Proof.
  intros W wcmp lt zero a b L Ha Hb. unfold sk_lt, sk_cmp.
  assert (NB : (exists i, differ_at lt zero i b a) -> ~ exists i, differ_at lt zero i a b).
  { intros (i & Hi & Pi & Li) (j & Hj & Pj & Lj).
    destruct (Nat.lt_trichotomy i j) as [X|[X|X]].
    - specialize (Pj i X). apply (same_level_sz wcmp lt zero L) in Pj. apply (level_lt_sz wcmp lt zero L) in Li.
      rewrite Pj, (lcmp_refl wcmp (law_eq wcmp lt L)) in Li. discriminate.
    - subst j. apply (level_lt_sz wcmp lt zero L) in Li, Lj.
      rewrite (lcmp_antisym wcmp (law_antisym wcmp lt L)), Lj in Li. discriminate.
    - specialize (Pi j X). apply (same_level_sz wcmp lt zero L) in Pi. apply (level_lt_sz wcmp lt zero L) in Lj.
      rewrite Pi, (lcmp_refl wcmp (law_eq wcmp lt L)) in Lj. discriminate. }
  assert (NE : equivalent zero b a -> ~ exists i, differ_at lt zero i a b).
  { intros He (j & Hj & Pj & Lj). specialize (He j Hj). apply (same_level_sz wcmp lt zero L) in He.
    apply (level_lt_sz wcmp lt zero L) in Lj. rewrite He, (lcmp_refl wcmp (law_eq wcmp lt L)) in Lj. discriminate. }
  destruct (C06_difference_level W wcmp lt zero b a L Hb Ha) as [(i & D & E)|[(i & D & E)|[D E]]];
    rewrite E; cbn [bind].
  - exists false. split; [f_equal; lia|]. split; [discriminate|]. intros X. exfalso. eapply NB; eauto.
  - exists true. split; [f_equal; lia|]. split; eauto.
  - exists false. split; [reflexivity|]. split; [discriminate|]. intros X. exfalso. now apply (NE D).
Qed.
Print Assumptions C06_less_than.

(** strict weak order: irreflexive, transitive, and incomparable means equivalent *)
Theorem C06_strict_weak_order :
  forall W (wcmp : W -> W -> comparison) (lt : W -> W -> Prop) (zero : W), lawful wcmp lt ->
    (forall a, length a = 3%nat -> sk_lt wcmp zero a (Some a) = Ok false) /\
    (forall a b c, length a = 3%nat -> length b = 3%nat -> length c = 3%nat ->
       sk_lt wcmp zero a (Some b) = Ok true -> sk_lt wcmp zero b (Some c) = Ok true ->
       sk_lt wcmp zero a (Some c) = Ok true) /\
    (forall a b, length a = 3%nat -> length b = 3%nat ->
       (sk_lt wcmp zero a (Some b) = Ok false /\ sk_lt wcmp zero b (Some a) = Ok false
        <-> equivalent zero a b)).
Proof.
  intros W wcmp lt zero L.
  pose proof (sk_lt_kcmp wcmp zero (law_antisym wcmp lt L)) as K.
  pose proof (kcmp_antisym wcmp zero (law_antisym wcmp lt L)) as A.
  pose proof (kcmp_eq wcmp zero (law_eq wcmp lt L)) as Q.
  pose proof (kcmp_trans wcmp zero (law_eq wcmp lt L) (law_trans wcmp lt L)) as T.
  split; [|split].
  - intros a Ha. rewrite K by assumption. now rewrite (proj2 (Q a a) eq_refl).
  - intros a b c Ha Hb Hc. rewrite !K by assumption.
    destruct (kcmp wcmp zero a b) eqn:E1; try discriminate.
    destruct (kcmp wcmp zero b c) eqn:E2; try discriminate.
    now rewrite (T _ _ _ E1 E2).
  - intros a b Ha Hb. split.
    + intros [H1 H2]. rewrite K in H1, H2 by assumption. rewrite A in H2.
      destruct (kcmp wcmp zero a b) eqn:E; cbn in *; try discriminate. apply Q in E.
      intros j Hj. apply (same_level_sz wcmp lt zero L).
      assert (N : forall l, stripzero wcmp zero (nth j l []) = nth j (map (stripzero wcmp zero) l) [])
        by (intros l; symmetry; apply (map_nth (stripzero wcmp zero) l [] j)).
      now rewrite !N, E.
    + intros H. rewrite !K by assumption. rewrite (A a b).
      assert (E : kcmp wcmp zero a b = Eq).
      { apply Q. apply len3 in Ha as (a0 & a1 & a2 & ->); apply len3 in Hb as (b0 & b1 & b2 & ->).
        pose proof (H 0%nat ltac:(lia)) as H0'. pose proof (H 1%nat ltac:(lia)) as H1'. pose proof (H 2%nat ltac:(lia)) as H2'.
        apply (same_level_sz wcmp lt zero L) in H0', H1', H2'. cbn in *. congruence. }
      now rewrite E.
Qed.
Print Assumptions C06_strict_weak_order.

(** sorting: a permutation, in order, with equivalent keys left in their old order *)
Theorem C06_sorting :
  forall W (wcmp : W -> W -> comparison) (lt : W -> W -> Prop) (zero : W) (l : list (list (list W))),
    lawful wcmp lt -> Forall (fun k => length k = 3%nat) l ->
    Permutation l (sk_sorted wcmp zero l) /\
    StronglySorted (fun a b => sk_lt wcmp zero b (Some a) = Ok false) (sk_sorted wcmp zero l) /\
    (forall p, (forall x y, p x = true -> p y = true -> length x = 3%nat /\ equivalent zero x y) ->
       filter p (sk_sorted wcmp zero l) = filter p l).
Proof.
  intros W wcmp lt zero l L Hl.
  assert (HT : exists ts, l = map (fun t : list W * list W * list W => [fst (fst t); snd (fst t); snd t]) ts).
  { induction Hl as [|k l Hk _ (ts & ->)]; [now exists []|].
    apply len3 in Hk as (a & b & c & ->). now exists ((a, b, c) :: ts). }
  destruct HT as (ts & ->). set (f := fun t : list W * list W * list W => [fst (fst t); snd (fst t); snd t]) in *.
  pose proof (law_antisym wcmp lt L) as LA.
  assert (LF : forall t, length (f t) = 3%nat) by reflexivity.
  assert (K : forall a b, sk_leb wcmp zero (f a) (f b) = match kcmp wcmp zero (f a) (f b) with Gt => false | _ => true end).
  { intros. apply sk_leb_kcmp; auto. }
  unfold sk_sorted. split; [apply isort_perm|split].
  - rewrite isort_map.
    assert (S : StronglySorted (fun a b => sk_leb wcmp zero (f a) (f b) = true)
                 (isort (fun a b => sk_leb wcmp zero (f a) (f b)) ts)).
    { apply (isort_sorted (fun a b => sk_leb wcmp zero (f a) (f b))).
      - intros a b. rewrite !K, (kcmp_antisym wcmp zero LA (f a)). destruct (kcmp wcmp zero (f a) (f b)); auto.
      - intros a b c. rewrite !K.
        destruct (kcmp wcmp zero (f a) (f b)) eqn:E1; try discriminate;
        destruct (kcmp wcmp zero (f b) (f c)) eqn:E2; try discriminate; intros _ _.
        + apply (kcmp_eq wcmp zero (law_eq wcmp lt L)) in E1. unfold kcmp in *. now rewrite E1, E2.
        + apply (kcmp_eq wcmp zero (law_eq wcmp lt L)) in E1. unfold kcmp in *. now rewrite E1, E2.
        + apply (kcmp_eq wcmp zero (law_eq wcmp lt L)) in E2. unfold kcmp in *. now rewrite <- E2, E1.
        + now rewrite (kcmp_trans wcmp zero (law_eq wcmp lt L) (law_trans wcmp lt L) _ _ _ E1 E2). }
    induction S as [|x xs HS IH HF]; cbn; constructor; auto.
    apply Forall_map. eapply Forall_impl; [|exact HF]. cbn beta. intros y. unfold sk_leb.
    destruct (sk_lt wcmp zero (f y) (Some (f x))) as [[]|] eqn:E; auto; discriminate.
  - intros p Hp. apply (isort_stable (sk_leb wcmp zero)). intros x y Hx Hy.
    destruct (Hp x y Hx Hy) as [Lx Hxy]. destruct (Hp y x Hy Hx) as [Ly _].
    pose proof (proj2 (proj2 (proj2 (C06_strict_weak_order W wcmp lt zero L)) x y Lx Ly) Hxy) as [_ H].
    unfold sk_leb. now rewrite H.
Qed.
Print Assumptions C06_sorting.

Lemma lawful_N : lawful N.compare N.lt.
Proof.
  split; [intros; apply N.compare_spec|]. split; [apply N.lt_irrefl|apply N.lt_trans].
Qed.
Example C06_nontrivial :
  lawful N.compare N.lt /\
  sk_lt N.compare 0 [[5]; [32]; [2]] (Some [[5; 0]; [32; 36]; [2]]) = Ok true /\
  sk_lt N.compare 0 [[5]; [32]; [2]] (Some [[5; 0]; [32]; [2]]) = Ok false.
Proof. split; [apply lawful_N|]. split; reflexivity. Qed.

(** * C07 *)
Theorem C07_equality_operators :
  forall W (wcmp : W -> W -> comparison) (lt : W -> W -> Prop) (zero : W) (a b : list (list W)),
    lawful wcmp lt -> length a = 3%nat -> length b = 3%nat ->
    sk_eq wcmp zero a (Some b) = Ok false /\ sk_ne wcmp zero a (Some b) = Ok true /\
    (equivalent zero a b ->
       sk_gt wcmp zero a (Some b) = Ok true /\ sk_gt wcmp zero b (Some a) = Ok true /\
       sk_ge wcmp zero a (Some b) = Ok true /\ sk_le wcmp zero a (Some b) = Ok false).
Proof.
  intros W wcmp lt zero a b L Ha Hb. unfold sk_eq, sk_ne, sk_gt, sk_ge, sk_le, sk_cmp.
  destruct (C06_difference_sign W wcmp lt zero b a L Hb Ha) as (z & -> & H). cbn [bind].
  split; [f_equal; lia|split; [f_equal; apply negb_true_iff; lia|]].
  intros He.
  pose proof (proj2 (proj2 (C06_strict_weak_order W wcmp lt zero L)) a b Ha Hb) as W3.
  apply W3 in He as [H1 H2]. unfold sk_lt, sk_cmp in H1, H2.
  assert (z = 4%Z /\ diffLevel wcmp zero (Some a) (Some b) = Ok 4%Z) as [-> E].
  { destruct H as [H|[R E]]; [exact H|]. exfalso. rewrite E in H2. cbn in H2. injection H2 as H2.
    destruct (C06_difference_sign W wcmp lt zero b a L Hb Ha) as (z' & E' & _).
    rewrite E' in H1. cbn in H1. injection H1 as H1.
    destruct (C06_difference_sign W wcmp lt zero a b L Ha Hb) as (z2 & E2 & [[-> E3]|[R2 E3]]);
      rewrite E2 in E; injection E as E; rewrite E3 in E'; injection E' as E'; lia. }
  rewrite E. cbn. auto.
Qed.
Print Assumptions C07_equality_operators.

(** comparing with None: ==, >= and <= say True, the others False *)
Theorem C07_equal_to_none : forall W (wcmp : W -> W -> comparison) (zero : W) (a : list (list W)),
  sk_eq wcmp zero a None = Ok true /\ sk_ge wcmp zero a None = Ok true /\ sk_le wcmp zero a None = Ok true /\
  sk_ne wcmp zero a None = Ok false /\ sk_gt wcmp zero a None = Ok false /\ sk_lt wcmp zero a None = Ok false.
Proof. intros. repeat split. Qed.

(** cmpKey at any level: equality of the first levels up to trailing zeros *)
Theorem C07_cmpKey :
  forall W (wcmp : W -> W -> comparison) (lt : W -> W -> Prop) (zero : W) (a b : list (list W)) (level : nat),
    lawful wcmp lt ->
    exists r, cmpKey wcmp zero (Some a) (Some b) level = Ok r /\
      (r = true <-> (level <= length a)%nat /\ (level <= length b)%nat /\
                    forall j, (j < level)%nat -> same_level zero (nth j a []) (nth j b [])).
Proof.
  intros W wcmp lt zero a b lev L. unfold cmpKey.
  destruct (Nat.ltb_spec (length a) lev); cbn [orb].
  { exists false. split; [reflexivity|]. split; [discriminate|lia]. }
  destruct (Nat.ltb_spec (length b) lev).
  { exists false. split; [reflexivity|]. split; [discriminate|lia]. }
  destruct (cmpKey_from_iff wcmp zero (law_eq wcmp lt L) lev 0 a b) as (r & E & Hr); [lia|lia|].
  exists r. split; [exact E|]. rewrite Hr. split.
  - intros X. repeat split; try lia. intros j Hj. apply (same_level_sz wcmp lt zero L). apply X. lia.
  - intros (_ & _ & X) j Hj. apply (same_level_sz wcmp lt zero L). apply X. lia.
Qed.
Print Assumptions C07_cmpKey.

Theorem C07_cmpKey_equivalence :
  forall W (wcmp : W -> W -> comparison) (lt : W -> W -> Prop) (zero : W), lawful wcmp lt ->
  let ceq a b := cmpKey wcmp zero (Some a) (Some b) 3 = Ok true in
    (forall a, length a = 3%nat -> ceq a a) /\
    (forall a b, ceq a b -> ceq b a) /\
    (forall a b c, ceq a b -> ceq b c -> ceq a c).
Proof.
  intros W wcmp lt zero L ceq.
  assert (H : forall a b, ceq a b <-> (3 <= length a)%nat /\ (3 <= length b)%nat /\
     forall j, (j < 3)%nat -> stripzero wcmp zero (nth j a []) = stripzero wcmp zero (nth j b [])).
  { intros a b. unfold ceq. destruct (C07_cmpKey W wcmp lt zero a b 3 L) as (r & -> & Hr).
    split.
    - intros X. injection X as ->. destruct (proj1 Hr eq_refl) as (A & B & C). repeat split; auto.
      intros j Hj. apply (same_level_sz wcmp lt zero L). auto.
    - intros (A & B & C). f_equal. apply Hr. repeat split; auto.
      intros j Hj. apply (same_level_sz wcmp lt zero L). auto. }
  repeat split.
  - intros a Ha. apply H. repeat split; try lia; auto.
  - intros a b X. apply H. apply H in X as (A & B & C). repeat split; auto. intros j Hj. symmetry. auto.
  - intros a b c X Y. apply H. apply H in X as (A & B & C). apply H in Y as (D & E & F).
    repeat split; auto. intros j Hj. rewrite C by assumption. auto.
Qed.
Print Assumptions C07_cmpKey_equivalence.

(** * C08 *)
(** The items of [s]: [s] cut into pieces. The first piece may be empty. A piece is built
    character by character through known elements only (later pieces start from one
    arbitrary character), and stops only where the next character would leave the known
    elements. *)
Theorem C08_itemise :
  forall (known : pystr -> bool) (s : pystr),
    exists first rest, itemise known s = first :: rest /\
      first ++ concat rest = s /\
      (forall n, (0 < n <= length first)%nat -> known (firstn n first) = true) /\
      (forall item, In item rest -> item <> [] /\
         forall n, (1 < n <= length item)%nat -> known (firstn n item) = true) /\
      (forall before x y after, first :: rest = before ++ x :: y :: after ->
         known (x ++ firstn 1 y) = false).
Proof.
  intros known s.
  destruct (itemise_from_spec known s 0 []) as (x & rest & E & _ & Hc & Hg & Hr & Hm);
    [intros n Hn; cbn in Hn; lia|].
  exists x, rest. repeat split; auto; rewrite Forall_forall in Hr; now apply Hr.
Qed.
Print Assumptions C08_itemise.
(** every item after the first is one character or a known element *)
Corollary C08_items_known : forall (known : pystr -> bool) (s : pystr) (item : pystr),
  In item (tl (itemise known s)) -> length item = 1%nat \/ known item = true.
Proof.
  intros known s item H. destruct (C08_itemise known s) as (f & r & E & _ & _ & Hr & _).
  rewrite E in H. cbn in H. destruct (Hr item H) as [Hne Hk].
  destruct item as [|a [|b item]]; [congruence|now left|right].
  specialize (Hk (length (a :: b :: item))). rewrite firstn_all in Hk. apply Hk. cbn. lia.
Qed.
Example C08_nontrivial :
  itemise (fun x => streq x (lit "a") || streq x (lit "ch") || streq x (lit "c"))%bool (lit "acha") =
  [lit "a"; lit "ch"; lit "a"].
Proof. reflexivity. Qed.

(** * C09 *)
(** Cutting a string by longest known prefix: [keys] are the keys of the successive pieces,
    [rest] is what is left when no prefix is known any more. *)
Inductive segments {W} (look : pystr -> option (key3 (W := W))) : pystr -> list key3 -> pystr -> Prop :=
| seg_stop k : (forall p q, k = p ++ q -> p <> [] -> look p = None) -> segments look k [] k
| seg_step p q key keys rest :
    p <> [] -> look p = Some key ->
    (forall p' q', p ++ q = p' ++ q' -> (length p < length p')%nat -> look p' = None) ->
    segments look q keys rest -> segments look (p ++ q) (key :: keys) rest.

Lemma segments_Seg {W} (look : pystr -> option (key3 (W := W))) k ks r : segments look k ks r <-> Seg look k ks r.
Proof. split; induction 1; econstructor; eauto. Qed.

(** the level-wise concatenation, zeros dropped unless [k] is a single character *)
Definition levels_of {W} (wcmp : W -> W -> comparison) (zero : W) (k : pystr) (keys : list (key3 (W := W)))
  : list (list W) :=
  let tidy l := match k with [_] => l | _ => filter (fun w => negb (weqb wcmp w zero)) l end in
  [tidy (flat_map (fun key => fst (fst key)) keys);
   tidy (flat_map (fun key => snd (fst key)) keys);
   tidy (flat_map (fun key => snd key) keys)].

Theorem C09_sort_key :
  forall W (wcmp : W -> W -> comparison) (zero : W) (look : pystr -> option (key3 (W := W))) (k : pystr),
    exists keys rest, segments look k keys rest /\
      ducetSortKey wcmp zero look k = Ok (levels_of wcmp zero k keys).
Proof.
  intros W wcmp zero look k. unfold ducetSortKey.
  destruct (sortkey_loop_spec look (length k) k ([], [], []) (le_n _)) as (ks & rest & HS & E).
  exists ks, rest. split; [now apply segments_Seg|]. rewrite E. cbn [bind].
  unfold levels_of, strip_all, l1, l2, l3. cbn [fst snd app].
  destruct k as [|a [|b k]]; reflexivity.
Qed.
Print Assumptions C09_sort_key.
Theorem C09_segmentation_unique :
  forall W (look : pystr -> option (key3 (W := W))) k keys rest keys' rest',
    segments look k keys rest -> segments look k keys' rest' -> keys = keys' /\ rest = rest'.
Proof.
  intros W look k ks r ks' r' H H'. apply segments_Seg in H, H'. eapply Seg_unique; eassumption.
Qed.
Print Assumptions C09_segmentation_unique.
(** which key a prefix has: the tailoring's, else what [fn] says, else the DUCET entry *)
Theorem C09_prefix_key :
  forall W (d : list (pystr * list (W * W * W))) extra fn (p : pystr),
    (forall key, extra p = Some key -> key_of d extra fn p = Some key) /\
    (extra p = None ->
       (forall f key, fn = Some f -> f p = Some key -> key_of d extra fn p = Some key) /\
       ((forall f, fn = Some f -> f p = None) ->
          key_of d extra fn p =
          match dget streq d p with
          | Some (r :: raw) => Some (map (fun t => fst (fst t)) (r :: raw), map (fun t => snd (fst t)) (r :: raw), map snd (r :: raw))
          | _ => None
          end)).
Proof.
  intros W d extra fn p. unfold key_of. split; [intros key ->; reflexivity|].
  intros ->. split.
  - intros f key -> H. now rewrite H.
  - intros H. destruct fn as [f|].
    + rewrite (H f eq_refl). unfold zip3. destruct (dget streq d p) as [[|r raw]|]; reflexivity.
    + unfold zip3. destruct (dget streq d p) as [[|r raw]|]; reflexivity.
Qed.
Print Assumptions C09_prefix_key.
Example C09_nontrivial :
  let d := [(lit "a", [(7, 32, 2)]); (lit "ch", [(9, 32, 2); (0, 33, 2)])] in
  ducetSortKey N.compare 0 (key_of d (fun _ => None) None) (lit "ach?a") = Ok [[7; 9]; [32; 32; 33]; [2; 2; 2]].
Proof. reflexivity. Qed.

(** * C10 *)
(** the dictionary only grows at the end, keys stay unique *)
Definition extends (c c' : coll) : Prop :=
  (exists new, c' = c ++ new) /\ (NoDup (dkeys c) -> NoDup (dkeys c')).

(** One entry per relation of a reset, in order. The entry of a relation is filed under its
    element followed by the fewest spaces that make it new; its base is the element before
    it; the reset's before mark goes to the first entry only. *)
Fixpoint one_entry_each (ws : N -> bool) (c : coll) (base : pystr) (before : N) (reset index : nat)
         (relations : list (pystr * pystr)) (new : coll) : Prop :=
  match relations, new with
  | [], [] => True
  | (op, text) :: relations', (key, e) :: new' =>
      exists element expansion m,
        rel_key ws text = Ok (element, expansion) /\ key = element ++ repeat 32 m /\
        ~ In key (dkeys c) /\ (forall j, (j < m)%nat -> In (element ++ repeat 32 j) (dkeys c)) /\
        e = CElt base (op_level ws op) before (reset, index) expansion /\
        one_entry_each ws (c ++ [(key, e)]) key 0 reset (S (S index)) relations' new'
  | _, _ => False
  end.
Fixpoint entries_of_resets (ws isd : N -> bool) (dval : N -> N) (reset : nat) (c : coll)
         (runs : list pystr) (news : list coll) : Prop :=
  match runs, news with
  | [], [] => True
  | run :: runs', new :: news' =>
      match run_bits ws isd dval run with
      | Ok (Some (base, before, relations)) => one_entry_each ws c base before reset 1 relations new
      | Ok None => new = []
      | Raise _ => False
      end /\ entries_of_resets ws isd dval (S reset) (c ++ new) runs' news'
  | _, _ => False
  end.

Lemma one_entry_chain ws rels : forall c base before n i new,
  chain ws c base before n i rels new <-> one_entry_each ws c base before n i rels new.
Proof.
  induction rels as [|[op text] rels IH]; intros c base before n i [|[key e] new]; cbn; try tauto.
  split; intros (el & exp & m & H1 & H2 & H3 & H4 & H5 & H6); exists el, exp, m;
    repeat split; auto; now apply IH.
Qed.
Lemma entries_runs_chain ws isd dval runs : forall n c news,
  runs_chain ws isd dval n c runs news <-> entries_of_resets ws isd dval n c runs news.
Proof.
  induction runs as [|run runs IH]; intros n c [|new news]; cbn; try tauto.
  rewrite IH. destruct (run_bits ws isd dval run) as [[[[b bf] rels]|]|]; try tauto.
  now rewrite one_entry_chain.
Qed.

(** parse never overwrites; the only exception it raises is ValueError (a hex escape above
    10FFFF), which leaves the entries made so far; without it every relation of every reset
    has made exactly one entry *)
Theorem C10_parse :
  forall (ws isd : N -> bool) (dval : N -> N) (c c' : coll) (s : pystr) (e : option exn),
    coll_parse ws isd dval c s = (c', e) ->
    extends c c' /\ (e = None \/ e = Some ValueError) /\
    (e = None -> exists news, c' = c ++ concat news /\
       entries_of_resets ws isd dval 0 c (split_on 38 (drop_comment_lines s)) news).
Proof.
  intros ws isd dval c c' s e H. unfold coll_parse in H.
  destruct (parse_runs_spec ws isd dval (split_on 38 (drop_comment_lines s)) 0 c) as (news & e' & E & (new & En & ND) & Ho & Hc).
  rewrite E in H. injection H as <- <-. split; [|split; [exact Ho|]].
  - split; [now exists (concat news)|exact ND].
  - intros X. exists news. split; [reflexivity|]. apply entries_runs_chain. auto.
Qed.
Print Assumptions C10_parse.

(** the number of entries is the number of relations *)
Theorem C10_one_entry_per_relation : forall ws relations c base before reset index new,
  one_entry_each ws c base before reset index relations new -> length new = length relations.
Proof.
  intros ws. induction relations as [|[op text] rels IH]; intros c base before n i [|[key e] new]; cbn; try tauto.
  intros (el & exp & m & _ & _ & _ & _ & _ & H). f_equal. eauto.
Qed.

(** direct assignment *)
Theorem C10_assignment : forall (c : coll) key v,
  (In key (dkeys c) -> coll_set c key v = Raise KeyError) /\
  (~ In key (dkeys c) -> coll_set c key v = Ok (c ++ [(key, v)])).
Proof.
  intros c key v. destruct (coll_set_spec c key v) as [[H E]|[H E]]; rewrite E; tauto.
Qed.

(** any history of parses and assignments on one Collation *)
Inductive action := Parse (s : pystr) | Assign (key : pystr) (v : celt).
Definition act (ws isd : N -> bool) (dval : N -> N) (c : coll) (a : action) : coll :=
  match a with
  | Parse s => fst (coll_parse ws isd dval c s)
  | Assign key v => match coll_set c key v with Ok c' => c' | Raise _ => c end
  end.
Theorem C10_history : forall ws isd dval (acts : list action) (c : coll),
  extends c (fold_left (act ws isd dval) acts c) /\
  forall key v, dget streq c key = Some v -> dget streq (fold_left (act ws isd dval) acts c) key = Some v.
Proof.
  intros ws isd dval acts c.
  assert (X : extends c (fold_left (act ws isd dval) acts c)).
  { revert c; induction acts as [|a acts IH]; intros c; cbn [fold_left].
    - split; [exists []; now rewrite app_nil_r|auto].
    - assert (A : extends c (act ws isd dval c a)).
      { destruct a as [s|key v]; cbn [act].
        - destruct (coll_parse ws isd dval c s) as [c' e] eqn:E. now apply C10_parse in E.
        - destruct (coll_set_spec c key v) as [[H ->]|[H ->]].
          + split; [exists []; now rewrite app_nil_r|auto].
          + destruct (grows_snoc c key v H) as (new & E & ND). split; [eauto|exact ND]. }
      destruct (IH (act ws isd dval c a)) as [(n2 & E2) ND2]. destruct A as [(n1 & E1) ND1].
      split; [|auto]. exists (n1 ++ n2). rewrite E2, E1. now rewrite app_assoc. }
  split; [exact X|]. destruct X as [(new & ->) _]. intros key v.
  induction c as [|[k' v'] c IH]; cbn; [discriminate|]. destruct (streq key k'); auto.
Qed.
Print Assumptions C10_history.

(** how a reset is cut into relations: the texts and operators in order make up the reset,
    an operator is a maximal run of < and = *)
Theorem C10_operators : forall run first relations, op_split run = (first, relations) ->
  run = first ++ concat (map (fun p => fst p ++ snd p) relations) /\
  (forall c, In c first -> c <> 60 /\ c <> 61) /\
  (forall op text, In (op, text) relations ->
     op <> [] /\ (forall c, In c op -> c = 60 \/ c = 61) /\ (forall c, In c text -> c <> 60 /\ c <> 61)) /\
  (forall a op text p b, relations = a ++ (op, text) :: p :: b -> text <> []).
Proof.
  intros run first rels E. pose proof (op_split_spec run) as H. rewrite E in H.
  destruct H as (H1 & H2 & H3 & H4).
  assert (NO : forall l, forallb (fun c => negb (isop c)) l = true -> forall c, In c l -> c <> 60 /\ c <> 61).
  { intros l Hl c Hc. rewrite forallb_forall in Hl. apply Hl in Hc. apply negb_true_iff in Hc.
    unfold isop in Hc. apply orb_false_iff in Hc as [A B]. split; now apply N.eqb_neq. }
  repeat split; auto; try (now apply (NO first H2)).
  - rewrite Forall_forall in H3. now apply H3 in H.
  - rewrite Forall_forall in H3. apply H3 in H as (_ & H & _). rewrite forallb_forall in H.
    intros c Hc. apply H in Hc. unfold isop in Hc. apply orb_prop in Hc as [Hc|Hc]; apply N.eqb_eq in Hc; auto.
  - rewrite Forall_forall in H3. apply H3 in H as (_ & _ & H). now apply (NO text H).
  - rewrite Forall_forall in H3. apply H3 in H as (_ & _ & H). now apply (NO text H).
  - intros a op text p b X. exact (H4 a (op, text) p b X).
Qed.
Print Assumptions C10_operators.

Definition ascii_ws (c : N) : bool := inchars c [9; 10; 11; 12; 13; 32].
Example C10_nontrivial :
  coll_parse ascii_ws is_digit (fun c => c - 48) [] (lit "&a < b <<< B &[before 1]b < c / e < b") =
  ([(lit "b", CElt (lit "a") 1 0 (1, 1)%nat []);
    (lit "B", CElt (lit "b") 3 0 (1, 3)%nat []);
    (lit "c", CElt (lit "b") 1 1 (2, 1)%nat (lit "e"));
    (lit "b ", CElt (lit "c") 1 0 (2, 3)%nat [])], None).
Proof. vm_compute. reflexivity. Qed.

(** * C11 *)
Definition known_string (tab : list (pystr * list (N * N * N))) (s : pystr) : Prop := In s (dkeys tab).
Lemma known_dkey tab s : known_string tab s <-> dkey tab s <> None.
Proof.
  unfold known_string, dkey. rewrite <- (dget_Some_iff streq streq_spec).
  destruct (dget streq tab s); split; intros H; try congruence; [eexists; eauto|destruct H; congruence].
Qed.
Lemma known_some tab s : known_string tab s -> exists raw, dkey tab s = Some (gen_key raw).
Proof.
  intros H. apply known_dkey in H. unfold dkey in *. destruct (dget streq tab s) as [raw|]; [eauto|congruence].
Qed.

Theorem C11_antisymmetric :
  forall lower isupper islower tab (a b : pystr),
    (a <> [] /\ b <> []) \/ (known_string tab a /\ known_string tab b) ->
    (ducetCompare lower isupper islower tab a b = Ok DUnknown /\
     ducetCompare lower isupper islower tab b a = Ok DUnknown) \/
    (exists z, ducetCompare lower isupper islower tab a b = Ok (DVal z) /\
               ducetCompare lower isupper islower tab b a = Ok (DVal (- z)) /\
               In z [-4; -1; 0; 1; 4]%Z).
Proof.
  intros lower up lo tab a b H.
  assert (HA : ducetCompare lower up lo tab b a = rneg (ducetCompare lower up lo tab a b)).
  { apply dc_antisym. rewrite <- !known_dkey. exact H. }
  rewrite HA.
  assert (Fin : forall ka kb ex, ducetCompare lower up lo tab a b = Ok (finish ka kb ex) ->
     exists z, ducetCompare lower up lo tab a b = Ok (DVal z) /\
       rneg (ducetCompare lower up lo tab a b) = Ok (DVal (- z)) /\ In z [-4; -1; 0; 1; 4]%Z).
  { intros ka kb ex E. destruct (finish_val ka kb ex _ eq_refl) as (z & F & I). rewrite E, F. eauto. }
  destruct (dkey tab a) as [ka|] eqn:Ea.
  - destruct (dkey tab b) as [kb|] eqn:Eb.
    + right. eapply Fin. eapply dc_known; eassumption.
    + destruct H as [[Hna Hnb]|[_ H]]; [|apply known_dkey in H; congruence].
      destruct a as [|x a]; [congruence|]. destruct b as [|y b]; [congruence|].
      pose proof (dc_fallback lower up lo tab (x :: a) (y :: b) x y a b eq_refl eq_refl (or_intror Eb)) as F.
      unfold fallback in F.
      destruct (dkey tab [x]) as [k1|], (dkey tab [y]) as [k2|]; try (left; rewrite F; auto; fail).
      destruct (case_pair lower up lo (x :: a) (y :: b)) as [[u v]|]; [|right; eapply Fin; exact F].
      destruct (dkey tab [u]), (dkey tab [v]); try (left; rewrite F; auto; fail). right. eapply Fin; exact F.
  - destruct H as [[Hna Hnb]|[H _]]; [|apply known_dkey in H; congruence].
    destruct a as [|x a]; [congruence|]. destruct b as [|y b]; [congruence|].
    pose proof (dc_fallback lower up lo tab (x :: a) (y :: b) x y a b eq_refl eq_refl (or_introl Ea)) as F.
    unfold fallback in F.
    destruct (dkey tab [x]) as [k1|], (dkey tab [y]) as [k2|]; try (left; rewrite F; auto; fail).
    destruct (case_pair lower up lo (x :: a) (y :: b)) as [[u v]|]; [|right; eapply Fin; exact F].
    destruct (dkey tab [u]), (dkey tab [v]); try (left; rewrite F; auto; fail). right. eapply Fin; exact F.
Qed.
Print Assumptions C11_antisymmetric.

(** the weights of level [i] of an entry, with the final 0 the code appends *)
Definition level_weights (raw : list (N * N * N)) (i : nat) : list N :=
  map (fun t => match i with O => fst (fst t) | 1%nat => snd (fst t) | _ => snd t end) raw ++ [0].

Definition before_at_some_level (ra rb : list (N * N * N)) : Prop :=
  exists i, (i < 3)%nat /\ (forall j, (j < i)%nat -> level_weights ra j = level_weights rb j) /\
    lex_lt N.lt (level_weights ra i) (level_weights rb i).

(** known strings: 0 exactly when the weights agree; positive (first before second) is
    transitive; and a positive value means the first level that differs is smaller (or that
    only the second entry has no weights at all) *)
Theorem C11_known_order :
  forall lower isupper islower tab,
    (forall a, known_string tab a -> ducetCompare lower isupper islower tab a a = Ok (DVal 0)) /\
    (forall a b ra rb, dget streq tab a = Some ra -> dget streq tab b = Some rb ->
       exists z, ducetCompare lower isupper islower tab a b = Ok (DVal z) /\
         ((0 < z)%Z <-> ra <> [] /\ (rb = [] \/ before_at_some_level ra rb)) /\
         (z = 0%Z <-> (ra = [] <-> rb = []) /\ forall i, level_weights ra i = level_weights rb i)) /\
    (forall a b c x y, known_string tab a -> known_string tab b -> known_string tab c ->
       ducetCompare lower isupper islower tab a b = Ok (DVal x) ->
       ducetCompare lower isupper islower tab b c = Ok (DVal y) -> (0 < x)%Z -> (0 < y)%Z ->
       exists z, ducetCompare lower isupper islower tab a c = Ok (DVal z) /\ (0 < z)%Z).
Proof.
  intros lower up lo tab. split; [|split].
  - intros a Ha. apply known_some in Ha as (raw & Ha). rewrite (dc_known lower up lo tab a a _ _ Ha Ha).
    f_equal. unfold finish. rewrite first_diff_refl. f_equal. unfold cmp_len. lia.
  - intros a b ra rb Ha Hb.
    assert (Ka : dkey tab a = Some (gen_key ra)) by (unfold dkey; now rewrite Ha).
    assert (Kb : dkey tab b = Some (gen_key rb)) by (unfold dkey; now rewrite Hb).
    rewrite (dc_known lower up lo tab a b _ _ Ka Kb).
    destruct (finish_pos (gen_key ra) (gen_key rb) (gen_key_len ra) (gen_key_len rb)) as (z & -> & P & Z0).
    exists z. split; [reflexivity|]. rewrite P, Z0. clear P Z0.
    assert (G : forall raw, (raw = [] /\ gen_key raw = []) \/
       (raw <> [] /\ gen_key raw = [level_weights raw 0; level_weights raw 1; level_weights raw 2])).
    { intros [|r raw]; [left; auto|right]. split; [discriminate|reflexivity]. }
    pose proof (fun x y => lcmp_eq N.compare Ncmp_eq x y) as Q1.
    assert (Q2 : forall x y, lcmp N.compare x y = Lt <-> lex_lt N.lt x y).
    { intros x y. rewrite (lcmp_lt_iff N.compare Ncmp_eq). split.
      - intros (p & [(c & r & -> & ->)|(c & r & d & r' & -> & -> & H)]).
        + left. eauto.
        + right. apply N.compare_lt_iff in H. exists p, c, d, r, r'. auto.
      - intros [(c & r & ->)|(p & c & d & r & r' & -> & -> & H)].
        + exists x. left. eauto.
        + exists p. right. apply N.compare_lt_iff in H. exists c, r, d, r'. auto. }
    destruct (G ra) as [[-> Ga]|[Na Ga]], (G rb) as [[-> Gb]|[Nb Gb]]; rewrite ?Ga, ?Gb.
    + cbn. intuition congruence.
    + cbn. split; [intuition congruence|]. split; [discriminate|]. intros [[X _] _]. now rewrite (X eq_refl) in Nb.
    + cbn. split; [intuition auto|]. split; [discriminate|]. intros [[_ X] _]. now rewrite (X eq_refl) in Na.
    + split.
      * split.
        -- intros [_ [X|[_ X]]]; [discriminate|]. split; [exact Na|right].
           cbn [lcmp] in X.
           destruct (lcmp N.compare (level_weights ra 0) (level_weights rb 0)) eqn:E0; try discriminate.
           2:{ exists 0%nat. repeat split; [lia|lia|]. now apply Q2. }
           destruct (lcmp N.compare (level_weights ra 1) (level_weights rb 1)) eqn:E1; try discriminate.
           2:{ exists 1%nat. repeat split; [lia| |now apply Q2]. intros [|j] Hj; [now apply Q1|lia]. }
           destruct (lcmp N.compare (level_weights ra 2) (level_weights rb 2)) eqn:E2; try discriminate.
           exists 2%nat. repeat split; [lia| |now apply Q2].
           intros [|[|j]] Hj; [now apply Q1|now apply Q1|lia].
        -- intros [_ [X|(i & Hi & Hj & Hl)]]; [congruence|]. split; [reflexivity|right]. split; [reflexivity|].
           apply Q2 in Hl. cbn [lcmp]. destruct i as [|[|[|i]]]; [..|lia].
           ++ now rewrite Hl.
           ++ rewrite (proj2 (Q1 _ _) (Hj 0%nat ltac:(lia))). now rewrite Hl.
           ++ rewrite (proj2 (Q1 _ _) (Hj 0%nat ltac:(lia))), (proj2 (Q1 _ _) (Hj 1%nat ltac:(lia))). now rewrite Hl.
      * split.
        -- intros X. injection X as X0 X1 X2. split; [split; congruence|]. intros [|[|[|i]]]; auto.
        -- intros [_ X]. now rewrite (X 0%nat), (X 1%nat), (X 2%nat).
  - intros a b c x y Ha Hb Hc.
    apply known_some in Ha as (ra & Ha). apply known_some in Hb as (rb & Hb). apply known_some in Hc as (rc & Hc).
    rewrite (dc_known lower up lo tab a b _ _ Ha Hb), (dc_known lower up lo tab b c _ _ Hb Hc), (dc_known lower up lo tab a c _ _ Ha Hc).
    intros Ex Ey Hx Hy. injection Ex as Ex. injection Ey as Ey.
    destruct (finish_trans _ _ _ x y (gen_key_len ra) (gen_key_len rb) (gen_key_len rc) Ex Ey Hx Hy) as (z & -> & Hz).
    eauto.
Qed.
Print Assumptions C11_known_order.

(** an empty string that is not in the table: an exception one way, and possibly 'unknown'
    the other way *)
Theorem C11_empty_string_refuted :
  exists tab, ducetCompare (fun c => [c]) (fun _ => false) (fun _ => false) tab [] [98] = Raise IndexError /\
    ducetCompare (fun c => [c]) (fun _ => false) (fun _ => false) tab [98] [] = Ok DUnknown.
Proof. exists [(lit "a", [(7, 32, 2)])]. split; reflexivity. Qed.
Example C11_nontrivial :
  let tab := [(lit "a", [(7, 32, 2)]); (lit "A", [(7, 32, 8)]); (lit "b", [(8, 32, 2)])] in
  ducetCompare (fun c => if c =? 65 then [97] else [c]) (fun c => c =? 65) (fun c => c =? 97) tab (lit "ab") (lit "Ab") = Ok (DVal 1) /\
  ducetCompare (fun c => [c]) (fun c => c =? 65) (fun c => c =? 97) tab (lit "a") (lit "b") = Ok (DVal 1) /\
  known_string tab (lit "a").
Proof. split; [reflexivity|]. split; [reflexivity|]. now left. Qed.

(** * C12 *)
(** a key field: groups of 4 to 7 hex digits, each followed by something without hex digits *)
Definition good_groups (items : list (pystr * pystr)) : Prop :=
  Forall (fun p : pystr * pystr => forallb is_hex (fst p) = true /\ (4 <= length (fst p) <= 7)%nat /\
                   snd p <> [] /\ (forall c, In c (snd p) -> is_hex c = false /\ c <> 59)) items.
Definition key_field (items : list (pystr * pystr)) : pystr := concat (map (fun p => fst p ++ snd p) items).
(** a weights field: any text without brackets around weights [.hhhh.hhhh.hhhh] or [*hhhh...] *)
Definition weight := (bool * pystr * pystr * pystr)%type.
Definition good_weight (w : weight) : Prop :=
  let '(_, a, b, c) := w in
  length a = 4%nat /\ length b = 4%nat /\ length c = 4%nat /\
  forallb is_hex a = true /\ forallb is_hex b = true /\ forallb is_hex c = true.
Definition show_weight (w : weight) : pystr :=
  let '(star, a, b, c) := w in
  [91; if star : bool then 42 else 46] ++ a ++ [46] ++ b ++ [46] ++ c ++ [93].
Definition weight_value (w : weight) : N * N * N := let '(_, a, b, c) := w in (hexnum a, hexnum b, hexnum c).

Lemma hexdigit_not_sep c : is_hex c = true -> c <> 59 /\ c <> 64 /\ c <> 91.
Proof. unfold is_hex, is_upper_hex, is_digit. intros H. repeat split; intros ->; discriminate. Qed.

Lemma find_vals_all pre ws post : ~ In 91 pre -> ~ In 91 post -> Forall good_weight ws ->
  find_vals 0 (pre ++ flat_map show_weight ws ++ post) = map weight_value ws.
Proof.
  intros H1 H2 HF. rewrite find_vals_none by exact H1. clear pre H1.
  induction HF as [|[[[st a] b] c] ws (La & Lb & Lc & Ha & Hb & Hc) HF IH]; cbn [flat_map app map].
  - rewrite <- (app_nil_r post). rewrite find_vals_none by exact H2. reflexivity.
  - rewrite <- app_assoc.
    transitivity (find_vals 0 (weight_text st a b c ++ flat_map show_weight ws ++ post)).
    { unfold weight_text. cbn. rewrite <- !app_assoc. cbn. now rewrite <- !app_assoc. }
    rewrite find_vals_item by assumption. now rewrite IH.
Qed.

(** One line files the weights under the characters of the first four digits of each group,
    and touches nothing else. [white] is white space for strip. *)
Theorem C12_line :
  forall (white : N -> bool) tab items pre ws post,
    (forall c, is_hex c = true -> white c = false) ->
    items <> [] -> good_groups items -> Forall good_weight ws ->
    (forall c, In c (pre ++ post) -> c <> 59 /\ c <> 91) ->
    let chars := map (fun p => hexnum (firstn 4 (fst p))) items in
    let tab' := ducet_line white tab (key_field items ++ [59] ++ pre ++ flat_map show_weight ws ++ post) in
    dget streq tab' chars = Some (map weight_value ws) /\
    (forall k, k <> chars -> dget streq tab' k = dget streq tab k).
Proof.
  intros white tab items pre ws post Hw Hne Hg HW Hpp chars tab'.
  assert (HG : Forall (fun p : pystr * pystr => forallb is_hex (fst p) = true /\ (4 <= length (fst p) <= 7)%nat /\
     snd p <> [] /\ forallb (fun c => negb (is_hex c)) (snd p) = true) items).
  { eapply Forall_impl; [|exact Hg]. intros [g sep] (A & B & C & D). repeat split; auto; try tauto.
    apply forallb_forall. intros c Hc. apply negb_true_iff. now apply D. }
  assert (K1 : ~ In 59 (key_field items)).
  { unfold key_field. intros X. apply in_concat in X as (l & Hl & X). apply in_map_iff in Hl as ([g sep] & <- & Hin).
    unfold good_groups in Hg. rewrite Forall_forall in Hg. destruct (Hg _ Hin) as (A & _ & _ & D). cbn in *.
    apply in_app_or in X as [X|X].
    - rewrite forallb_forall in A. apply A in X. discriminate.
    - now apply D in X. }
  assert (K2 : ~ In 59 (pre ++ flat_map show_weight ws ++ post)).
  { intros X. apply in_app_or in X as [X|X]; [destruct (Hpp 59 ltac:(apply in_or_app; auto)); congruence|].
    apply in_app_or in X as [X|X]; [|destruct (Hpp 59 ltac:(apply in_or_app; auto)); congruence].
    apply in_flat_map in X as ([[[st a] b] c] & Hin & X). rewrite Forall_forall in HW.
    destruct (HW _ Hin) as (_ & _ & _ & Ha & Hb & Hc). rewrite forallb_forall in Ha, Hb, Hc.
    unfold show_weight in X. rewrite !in_app_iff in X. cbn in X.
    repeat destruct X as [X|X]; try contradiction; try (destruct st; discriminate); try discriminate;
      first [apply Ha in X|apply Hb in X|apply Hc in X]; discriminate. }
  assert (E : tab' = dset streq tab chars (map weight_value ws)).
  { unfold tab', ducet_line. cbn [app]. rewrite split_on_app by exact K1. rewrite split_on_nosep by exact K2.
    destruct items as [|[g sep] items']; [congruence|].
    assert (HS : exists x t, strip white (key_field ((g, sep) :: items')) = x :: t /\ x <> 64).
    { inversion Hg as [|? ? (A & B & _) _]; subst. cbn in A, B.
      destruct g as [|x g]; [cbn in B; lia|]. cbn in A. apply andb_prop in A as [A _].
      unfold key_field. cbn [map concat fst snd app].
      destruct (strip_head white x ((g ++ sep) ++ concat (map (fun p => fst p ++ snd p) items')) (Hw x A)) as (t & Et).
      exists x, t. split; [exact Et|]. now apply hexdigit_not_sep in A. }
    destruct HS as (x & t & -> & Hx).
    replace (ducet_key (key_field ((g, sep) :: items'))) with chars
      by (symmetry; apply (ducet_key_spec [] ((g, sep) :: items') eq_refl HG)).
    rewrite find_vals_all; auto.
    - nodigit x.
    - intros X. destruct (Hpp 91 ltac:(apply in_or_app; auto)); congruence.
    - intros X. destruct (Hpp 91 ltac:(apply in_or_app; auto)); congruence. }
  rewrite E. split.
  - apply (dget_dset_same streq streq_spec).
  - intros k Hk. now apply (dget_dset_other streq streq_spec).
Qed.
Print Assumptions C12_line.

(** four digit groups: the characters are exactly the ones listed *)
Corollary C12_bmp_characters : forall items,
  Forall (fun p : pystr * pystr => length (fst p) = 4%nat) items ->
  map (fun p : pystr * pystr => hexnum (firstn 4 (fst p))) items = map (fun p => hexnum (fst p)) items.
Proof.
  intros items H. apply map_ext_in. intros p Hp. rewrite Forall_forall in H.
  now rewrite firstn_all2 by (rewrite (H p Hp); lia).
Qed.
(** a supplementary character is filed under the wrong character and overwrites its entry:
    1D15E under U+1D15 *)
Theorem C12_supplementary_refuted :
  read_ducet ascii_ws [lit "1D15  ; [.1CAA.0020.0002]"; lit "1D15E ; [.0000.0000.0000]"] =
  [([0x1D15], [(0, 0, 0)])].
Proof. vm_compute. reflexivity. Qed.
Example C12_nontrivial :
  good_groups [(lit "0061", lit " "); (lit "0301", lit "  ")] /\
  ducet_line ascii_ws [] (lit "0061 0301  ; [.1C47.0020.0002][.0000.0024.0002] # A") =
    [([0x61; 0x301], [(0x1C47, 0x20, 2); (0, 0x24, 2)])].
Proof.
  split; [|vm_compute; reflexivity].
  assert (S : forall n c, In c (repeat 32 n) -> is_hex c = false /\ c <> 59).
  { intros n c H. apply repeat_spec in H as ->. split; [reflexivity|discriminate]. }
  apply Forall_cons; [|apply Forall_cons; [|apply Forall_nil]]; cbn -[In].
  - repeat split; try lia; try discriminate; now apply (S 1%nat).
  - repeat split; try lia; try discriminate; now apply (S 2%nat).
Qed.
