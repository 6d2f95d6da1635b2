(** Lemmas about [Py]. *)
From Verif Require Import Py.
From Coq Require Import ZifyBool ZifyNat ZifyN.

Lemma streq_spec (a b : pystr) : reflect (a = b) (streq a b).
Proof.
  revert b; induction a as [|x a IH]; intros [|y b]; simpl; try (constructor; congruence).
  destruct (N.eqb_spec x y) as [->|H]; simpl.
  - destruct (IH b) as [->|H]; constructor; congruence.
  - constructor; congruence.
Qed.

Lemma streq_refl a : streq a a = true.
Proof. destruct (streq_spec a a); congruence. Qed.

Lemma streq_true a b : streq a b = true <-> a = b.
Proof. destruct (streq_spec a b); intuition congruence. Qed.

Lemma streq_false a b : streq a b = false <-> a <> b.
Proof. destruct (streq_spec a b); intuition congruence. Qed.

Lemma streq_sym a b : streq a b = streq b a.
Proof. destruct (streq_spec a b), (streq_spec b a); congruence. Qed.

Lemma inchars_spec c s : inchars c s = true <-> In c s.
Proof.
  unfold inchars; rewrite existsb_exists; split.
  - intros (x & Hx & E); apply N.eqb_eq in E; subst; exact Hx.
  - intros H; exists c; split; [exact H | apply N.eqb_refl].
Qed.

Lemma inchars_false c s : inchars c s = false <-> ~ In c s.
Proof.
  rewrite <- inchars_spec; destruct (inchars c s); intuition congruence.
Qed.

(** ** Lexicographic comparison *)
Section Lcmp.
  Context {A : Type} (cmp : A -> A -> comparison).
  Hypothesis cmp_eq : forall x y, cmp x y = Eq <-> x = y.
  Hypothesis cmp_antisym : forall x y, cmp y x = CompOpp (cmp x y).
  Hypothesis cmp_trans : forall x y z, cmp x y = Lt -> cmp y z = Lt -> cmp x z = Lt.

  Lemma lcmp_eq a b : lcmp cmp a b = Eq <-> a = b.
  Proof.
    revert b; induction a as [|x a IH]; intros [|y b]; simpl; split; try congruence.
    - destruct (cmp x y) eqn:E; try congruence.
      intros H; apply IH in H; apply cmp_eq in E; congruence.
    - intros H; injection H as -> ->.
      replace (cmp y y) with Eq by (symmetry; apply cmp_eq; reflexivity).
      apply IH; reflexivity.
  Qed.

  Lemma lcmp_refl a : lcmp cmp a a = Eq.
  Proof. apply lcmp_eq; reflexivity. Qed.

  Lemma lcmp_antisym a b : lcmp cmp b a = CompOpp (lcmp cmp a b).
  Proof.
    revert b; induction a as [|x a IH]; intros [|y b]; simpl; try reflexivity.
    rewrite cmp_antisym; destruct (cmp x y); simpl; auto.
  Qed.

  Lemma lcmp_trans a b c : lcmp cmp a b = Lt -> lcmp cmp b c = Lt -> lcmp cmp a c = Lt.
  Proof.
    revert b c; induction a as [|x a IH]; intros [|y b] [|z c]; simpl; try congruence.
    destruct (cmp x y) eqn:E1; destruct (cmp y z) eqn:E2; try congruence; intros H1 H2.
    - apply cmp_eq in E1; apply cmp_eq in E2; subst.
      replace (cmp z z) with Eq by (symmetry; apply cmp_eq; reflexivity).
      eapply IH; eassumption.
    - apply cmp_eq in E1; subst; rewrite E2; reflexivity.
    - apply cmp_eq in E2; subst; rewrite E1; reflexivity.
    - rewrite (cmp_trans _ _ _ E1 E2); reflexivity.
  Qed.
End Lcmp.

Lemma Ncmp_eq x y : N.compare x y = Eq <-> x = y.
Proof. apply N.compare_eq_iff. Qed.
Lemma Ncmp_antisym x y : N.compare y x = CompOpp (N.compare x y).
Proof. rewrite N.compare_antisym; reflexivity. Qed.
Lemma Ncmp_trans x y z : N.compare x y = Lt -> N.compare y z = Lt -> N.compare x z = Lt.
Proof. rewrite !N.compare_lt_iff; apply N.lt_trans. Qed.

Lemma strcmp_eq a b : strcmp a b = Eq <-> a = b.
Proof. apply lcmp_eq, Ncmp_eq. Qed.
Lemma strcmp_antisym a b : strcmp b a = CompOpp (strcmp a b).
Proof. apply lcmp_antisym, Ncmp_antisym. Qed.
Lemma strcmp_trans a b c : strcmp a b = Lt -> strcmp b c = Lt -> strcmp a c = Lt.
Proof. apply lcmp_trans; [apply Ncmp_eq | apply Ncmp_trans]. Qed.

Lemma strleb_total a b : strleb a b = true \/ strleb b a = true.
Proof. unfold strleb; rewrite (strcmp_antisym a b); destruct (strcmp a b); simpl; auto. Qed.

Lemma strleb_antisym a b : strleb a b = true -> strleb b a = true -> a = b.
Proof.
  unfold strleb; rewrite (strcmp_antisym a b); destruct (strcmp a b) eqn:E; simpl;
    try congruence; intros _ _; apply strcmp_eq; exact E.
Qed.

Lemma strleb_trans a b c : strleb a b = true -> strleb b c = true -> strleb a c = true.
Proof.
  unfold strleb; destruct (strcmp a b) eqn:E1; destruct (strcmp b c) eqn:E2; try congruence;
    intros _ _.
  - apply strcmp_eq in E1, E2; subst.
    replace (strcmp c c) with Eq by (symmetry; apply strcmp_eq; reflexivity); reflexivity.
  - apply strcmp_eq in E1; subst; rewrite E2; reflexivity.
  - apply strcmp_eq in E2; subst; rewrite E1; reflexivity.
  - rewrite (strcmp_trans _ _ _ E1 E2); reflexivity.
Qed.

(** ** Dictionaries *)
Section DictFacts.
  Context {K V : Type} (eqb : K -> K -> bool).
  Hypothesis eqb_spec : forall a b, reflect (a = b) (eqb a b).
  Implicit Types d : list (K * V).

  Lemma dget_dset_same d k v : dget eqb (dset eqb d k v) k = Some v.
  Proof.
    induction d as [|[k' v'] d IH]; simpl.
    - destruct (eqb_spec k k); congruence.
    - destruct (eqb_spec k k') as [->|H]; simpl.
      + destruct (eqb_spec k' k'); congruence.
      + destruct (eqb_spec k k'); congruence.
  Qed.

  Lemma dget_dset_other d k k2 v : k2 <> k -> dget eqb (dset eqb d k v) k2 = dget eqb d k2.
  Proof.
    intros N; induction d as [|[k' v'] d IH]; simpl.
    - destruct (eqb_spec k2 k); congruence.
    - destruct (eqb_spec k k') as [->|H]; simpl.
      + destruct (eqb_spec k2 k'); congruence.
      + rewrite IH; reflexivity.
  Qed.

  Lemma dget_dset d k k2 v :
    dget eqb (dset eqb d k v) k2 = if eqb k2 k then Some v else dget eqb d k2.
  Proof.
    destruct (eqb_spec k2 k) as [->|H]; [apply dget_dset_same | apply dget_dset_other; exact H].
  Qed.

  Lemma dget_In d k v : dget eqb d k = Some v -> In (k, v) d.
  Proof.
    induction d as [|[k' v'] d IH]; simpl; [congruence|].
    destruct (eqb_spec k k') as [->|H]; [intros E; injection E as ->; auto | auto].
  Qed.

  Lemma dget_None d k : dget eqb d k = None <-> ~ In k (dkeys d).
  Proof.
    unfold dkeys; induction d as [|[k' v'] d IH]; simpl; [tauto|].
    destruct (eqb_spec k k') as [->|H]; [split; [congruence | tauto] |].
    rewrite IH; intuition congruence.
  Qed.

  Lemma dget_Some_iff d k : (exists v, dget eqb d k = Some v) <-> In k (dkeys d).
  Proof.
    destruct (dget eqb d k) as [v|] eqn:E.
    - split; [intros _ | intros _; eauto].
      apply dget_In in E; unfold dkeys; apply in_map_iff; exists (k, v); auto.
    - apply dget_None in E; split; [intros [v H]; congruence | tauto].
  Qed.

  Lemma dmem_spec d k : dmem eqb d k = true <-> In k (dkeys d).
  Proof.
    rewrite <- dget_Some_iff; unfold dmem; destruct (dget eqb d k); split; intros H;
      try congruence; eauto; destruct H; congruence.
  Qed.

  Lemma dget_NoDup_In d k v : NoDup (dkeys d) -> In (k, v) d -> dget eqb d k = Some v.
  Proof.
    unfold dkeys; induction d as [|[k' v'] d IH]; simpl; [tauto|].
    intros ND; inversion ND as [|? ? Hn ND']; subst; intros [E|Hin].
    - injection E as -> ->; destruct (eqb_spec k k); congruence.
    - destruct (eqb_spec k k') as [->|H]; [|auto].
      exfalso; apply Hn; apply in_map_iff; exists (k', v); auto.
  Qed.

  Lemma dkeys_dset d k v :
    dkeys (dset eqb d k v) = if dmem eqb d k then dkeys d else dkeys d ++ [k].
  Proof.
    unfold dmem, dkeys; induction d as [|[k' v'] d IH]; simpl; [reflexivity|].
    destruct (eqb_spec k k') as [->|H]; simpl; [reflexivity|].
    rewrite IH; destruct (dget eqb d k); reflexivity.
  Qed.

  Lemma dset_NoDup d k v : NoDup (dkeys d) -> NoDup (dkeys (dset eqb d k v)).
  Proof.
    intros ND; rewrite dkeys_dset; destruct (dmem eqb d k) eqn:E; [exact ND|].
    assert (~ In k (dkeys d)) as Hn by (rewrite <- dmem_spec; congruence).
    apply Permutation_NoDup with (k :: dkeys d).
    - apply Permutation_cons_append.
    - constructor; assumption.
  Qed.

  Lemma in_dkeys_dset d k v x : In x (dkeys (dset eqb d k v)) <-> x = k \/ In x (dkeys d).
  Proof.
    rewrite dkeys_dset; destruct (dmem eqb d k) eqn:E.
    - apply dmem_spec in E; split; [auto | intros [->|]; auto].
    - rewrite in_app_iff; simpl; intuition.
  Qed.

  Lemma ddel_sub d k x : In x (ddel eqb d k) -> In x d.
  Proof.
    induction d as [|[k' v'] d IH]; simpl; [tauto|].
    destruct (eqb k k'); simpl; intuition.
  Qed.

  Lemma dkeys_ddel_sub d k x : In x (dkeys (ddel eqb d k)) -> In x (dkeys d).
  Proof.
    unfold dkeys; rewrite !in_map_iff; intros (p & E & H); exists p; split; [exact E|].
    eapply ddel_sub; eassumption.
  Qed.

  Lemma ddel_NoDup d k : NoDup (dkeys d) -> NoDup (dkeys (ddel eqb d k)).
  Proof.
    unfold dkeys; induction d as [|[k' v'] d IH]; simpl; [auto|].
    intros ND; inversion ND as [|? ? Hn ND']; subst.
    destruct (eqb k k'); simpl; [exact ND'|]; constructor; [|auto].
    intros Hi; apply Hn; apply (dkeys_ddel_sub d k); exact Hi.
  Qed.

  Lemma dget_ddel d k k2 : NoDup (dkeys d) ->
    dget eqb (ddel eqb d k) k2 = if eqb k2 k then None else dget eqb d k2.
  Proof.
    unfold dkeys; induction d as [|[k' v'] d IH]; simpl; intros ND.
    - destruct (eqb k2 k); reflexivity.
    - inversion ND as [|? ? Hn ND']; subst.
      destruct (eqb_spec k k') as [->|H]; simpl.
      + destruct (eqb_spec k2 k') as [E|H2].
        * rewrite E; apply dget_None; exact Hn.
        * reflexivity.
      + rewrite IH by exact ND'.
        destruct (eqb_spec k2 k') as [E|H2]; [|reflexivity].
        destruct (eqb_spec k2 k); congruence.
  Qed.
End DictFacts.

(** ** Stable sort *)
Section SortFacts.
  Context {A : Type} (leb : A -> A -> bool).
  Hypothesis leb_total : forall a b, leb a b = true \/ leb b a = true.
  Hypothesis leb_trans : forall a b c, leb a b = true -> leb b c = true -> leb a c = true.

  Lemma insert_perm x l : Permutation (x :: l) (insert leb x l).
  Proof.
    induction l as [|y l IH]; simpl; [auto|].
    destruct (leb x y); [auto|].
    etransitivity; [apply perm_swap | apply perm_skip; exact IH].
  Qed.

  Lemma isort_perm l : Permutation l (isort leb l).
  Proof.
    induction l as [|x l IH]; simpl; [auto|].
    etransitivity; [apply perm_skip; exact IH | apply insert_perm].
  Qed.

  Lemma insert_sorted x l :
    StronglySorted (fun a b => leb a b = true) l ->
    StronglySorted (fun a b => leb a b = true) (insert leb x l).
  Proof.
    induction 1 as [|y l HS IH HF]; simpl; [repeat constructor|].
    destruct (leb x y) eqn:E.
    - constructor; [constructor; assumption|].
      constructor; [exact E|].
      rewrite Forall_forall in *; intros z Hz; eapply leb_trans; eauto.
    - constructor; [exact IH|].
      rewrite Forall_forall in *; intros z Hz.
      apply (Permutation_in _ (Permutation_sym (insert_perm x l))) in Hz.
      destruct Hz as [<-|Hz]; [|auto].
      destruct (leb_total x y); congruence.
  Qed.

  Lemma isort_sorted l : StronglySorted (fun a b => leb a b = true) (isort leb l).
  Proof. induction l; simpl; [constructor | apply insert_sorted; assumption]. Qed.

  Lemma insert_sorted_id x l :
    Forall (fun y => leb x y = true) l -> insert leb x l = x :: l.
  Proof. destruct 1 as [|y l E H]; simpl; [|rewrite E]; reflexivity. Qed.

  Lemma isort_id l : StronglySorted (fun a b => leb a b = true) l -> isort leb l = l.
  Proof.
    induction 1 as [|x l HS IH HF]; simpl; [reflexivity|].
    rewrite IH; apply insert_sorted_id; exact HF.
  Qed.

  Lemma isort_idem l : isort leb (isort leb l) = isort leb l.
  Proof. apply isort_id, isort_sorted. Qed.

  Lemma in_isort x l : In x (isort leb l) <-> In x l.
  Proof.
    split; apply Permutation_in; [symmetry|]; apply isort_perm.
  Qed.

  (** with an antisymmetric order the result depends only on the multiset *)
  Lemma sorted_perm_unique l1 l2 :
    (forall a b, In a l1 -> In b l1 -> leb a b = true -> leb b a = true -> a = b) ->
    StronglySorted (fun a b => leb a b = true) l1 ->
    StronglySorted (fun a b => leb a b = true) l2 ->
    Permutation l1 l2 -> l1 = l2.
  Proof.
    revert l2; induction l1 as [|x l1 IH]; intros l2 HA S1 S2 P.
    - apply Permutation_nil in P; congruence.
    - destruct l2 as [|y l2]; [apply Permutation_sym, Permutation_nil in P; congruence|].
      inversion S1 as [|? ? S1' F1]; inversion S2 as [|? ? S2' F2]; subst.
      assert (x = y) as ->.
      { destruct (Permutation_in _ (Permutation_sym P) (or_introl eq_refl : In y (y :: l2)))
          as [E|Hy]; [exact E|].
        destruct (Permutation_in _ P (or_introl eq_refl : In x (x :: l1))) as [E|Hx];
          [symmetry; exact E|].
        rewrite Forall_forall in F1, F2.
        apply HA; simpl; auto. }
      f_equal; apply IH; auto.
      + intros a b Ha Hb; apply HA; simpl; auto.
      + eapply Permutation_cons_inv; exact P.
  Qed.

  Lemma isort_perm_eq l1 l2 :
    (forall a b, In a l1 -> In b l1 -> leb a b = true -> leb b a = true -> a = b) ->
    Permutation l1 l2 -> isort leb l1 = isort leb l2.
  Proof.
    intros HA P; apply sorted_perm_unique; try apply isort_sorted.
    - intros a b; rewrite !in_isort; apply HA.
    - etransitivity; [symmetry; apply isort_perm|].
      etransitivity; [exact P | apply isort_perm].
  Qed.

  (** stability: filtering a class of equivalent elements keeps their order *)
  Lemma insert_filter_out p x l :
    p x = false -> filter p (insert leb x l) = filter p l.
  Proof.
    intros Hp; induction l as [|y l IH]; simpl; [rewrite Hp; reflexivity|].
    destruct (leb x y); simpl; [rewrite Hp; reflexivity | rewrite IH; reflexivity].
  Qed.

  Lemma insert_filter_in p x l :
    p x = true -> (forall y, p y = true -> leb x y = true) ->
    filter p (insert leb x l) = x :: filter p l.
  Proof.
    intros Hp Hc; induction l as [|y l IH]; simpl; [rewrite Hp; reflexivity|].
    destruct (leb x y) eqn:E; simpl; [rewrite Hp; reflexivity|].
    destruct (p y) eqn:Ey; [apply Hc in Ey; congruence | exact IH].
  Qed.

  Lemma isort_stable p l :
    (forall x y, p x = true -> p y = true -> leb x y = true) ->
    filter p (isort leb l) = filter p l.
  Proof.
    intros Hc; induction l as [|x l IH]; simpl; [reflexivity|].
    destruct (p x) eqn:E.
    - rewrite insert_filter_in; [rewrite IH; reflexivity | exact E | intros y Hy; auto].
    - rewrite insert_filter_out; [exact IH | exact E].
  Qed.
End SortFacts.

(** ** split / join *)
Lemma split_on_nonempty c s : split_on c s <> [].
Proof.
  destruct s as [|x s]; simpl; [congruence|].
  destruct (N.eqb x c); [congruence|]; destruct (split_on c s); congruence.
Qed.

Lemma split_on_nosep c s : ~ In c s -> split_on c s = [s].
Proof.
  induction s as [|x s IH]; simpl; [reflexivity|].
  intros H; destruct (N.eqb_spec x c) as [E|E]; [tauto|].
  rewrite IH by tauto; reflexivity.
Qed.

Lemma split_on_app c a b : ~ In c a -> split_on c (a ++ c :: b) = a :: split_on c b.
Proof.
  induction a as [|x a IH]; simpl; intros H.
  - rewrite N.eqb_refl; reflexivity.
  - destruct (N.eqb_spec x c) as [E|E]; [tauto|].
    rewrite IH by tauto; reflexivity.
Qed.

Lemma split_join c l :
  l <> [] -> Forall (fun s => ~ In c s) l -> split_on c (join [c] l) = l.
Proof.
  induction l as [|a l IH]; [congruence|].
  intros _ HF; inversion HF as [|? ? Ha HF']; subst.
  destruct l as [|b l]; simpl; [apply split_on_nosep; exact Ha|].
  change (a ++ c :: join [c] (b :: l)) with (a ++ c :: join [c] (b :: l)).
  rewrite split_on_app by exact Ha; f_equal; apply IH; [congruence | exact HF'].
Qed.

Lemma join_split c s : join [c] (split_on c s) = s.
Proof.
  induction s as [|x s IH]; simpl; [reflexivity|].
  destruct (N.eqb_spec x c) as [->|E].
  - destruct (split_on c s) as [|h t] eqn:E2; [exfalso; exact (split_on_nonempty _ _ E2)|].
    rewrite <- IH; reflexivity.
  - destruct (split_on c s) as [|h t] eqn:E2; [exfalso; exact (split_on_nonempty _ _ E2)|].
    rewrite <- IH; destruct t; reflexivity.
Qed.

Lemma split_on_In c s p : In p (split_on c s) -> ~ In c p.
Proof.
  revert p; induction s as [|x s IH]; simpl; intros p.
  - intros [<-|[]]; simpl; tauto.
  - destruct (N.eqb_spec x c) as [->|E].
    + intros [<-|H]; [simpl; tauto | apply IH; exact H].
    + destruct (split_on c s) as [|h t] eqn:E2; [exfalso; exact (split_on_nonempty _ _ E2)|].
      intros [<-|H].
      * simpl; intros [->|H]; [congruence|]; apply (IH h); simpl; auto.
      * apply IH; simpl; auto.
Qed.

(** ** hex *)
Lemma hexval_hexdig d : (d < 16)%N -> hexval (hexdig d) = d.
Proof.
  intros H; unfold hexdig, hexval, is_digit.
  destruct (N.ltb_spec d 10);
    repeat match goal with |- context [N.leb ?a ?b] => destruct (N.leb_spec a b) end;
    cbn [andb]; lia.
Qed.

Lemma is_hex_hexdig d : (d < 16)%N -> is_hex (hexdig d) = true.
Proof.
  intros H; unfold hexdig, is_hex, is_upper_hex, is_digit.
  destruct (N.ltb_spec d 10); lia.
Qed.

Lemma hexpad_length n v : length (hexpad n v) = n.
Proof.
  revert v; induction n as [|n IH]; intros v; simpl; [reflexivity|].
  rewrite app_length, IH; simpl; lia.
Qed.

Lemma hexpad_hex n v : forallb is_hex (hexpad n v) = true.
Proof.
  revert v; induction n as [|n IH]; intros v; simpl; [reflexivity|].
  rewrite forallb_app, IH; simpl; rewrite is_hex_hexdig; [reflexivity|].
  apply N.mod_lt; lia.
Qed.

Lemma hexnum_app a d : hexnum (a ++ [d]) = (16 * hexnum a + hexval d)%N.
Proof. unfold hexnum; rewrite fold_left_app; reflexivity. Qed.

Lemma hexnum_hexpad n v : (v < 16 ^ N.of_nat n)%N -> hexnum (hexpad n v) = v.
Proof.
  revert v; induction n as [|n IH]; intros v.
  - simpl; unfold hexnum; simpl; lia.
  - intros H; cbn [hexpad]; rewrite hexnum_app, hexval_hexdig by (apply N.mod_lt; lia).
    rewrite IH.
    + symmetry; apply N.div_mod; lia.
    + apply N.div_lt_upper_bound; [lia|].
      rewrite Nat2N.inj_succ, N.pow_succ_r' in H; lia.
Qed.

Lemma skipn_skipn {A} x y (l : list A) : skipn x (skipn y l) = skipn (x + y) l.
Proof.
  revert l; induction y as [|y IH]; intros l; [rewrite Nat.add_0_r; reflexivity|].
  rewrite Nat.add_succ_r. destruct l as [|a l]; [now rewrite !skipn_nil|]. apply IH.
Qed.
