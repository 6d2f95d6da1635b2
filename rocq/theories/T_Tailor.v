(** C58, C60: tailored sort keys. *)
From Verif Require Import Py PyFacts M_UnicodeSets P_UnicodeSets M_Collation P_Collation P_Collation2 T_Collation
  M_Tailor P_Tailor.

(** * Specification *)
(** a tailoring as [parse] leaves it (no keys yet), without expansions: every base is an element, or in the
    DUCET table, or empty *)
Definition plain_tailoring {W} (d : list (pystr * list (W * W * W))) (elts : list (pystr * tel)) : Prop :=
  NoDup (map fst elts) /\
  forall k e, In (k, e) elts ->
    t_exp e = [] /\ t_short e = None /\ t_key e = None /\
    (t_base e = [] \/ In (t_base e) (map fst elts) \/ In (t_base e) (map fst d)).
(** tuples in the order Python gives them *)
Definition not_after (a b : list nat) : Prop :=
  (exists r, b = a ++ r) \/ exists p x y r s, a = p ++ x :: r /\ b = p ++ y :: s /\ (x < y)%nat.
(** the base of [e] is an element that is given no later than [e] *)
Definition tailored_base (elts : list (pystr * tel)) (e : tel) : Prop :=
  exists b, In (t_base e, b) elts /\ not_after (t_order b) (t_order e).
(** [v] and [vb] differ in the last weight of one level only *)
Definition last_changed {W} (change : W -> W) (l : nat) (vb v : list (list W)) : Prop :=
  length vb = 3%nat /\ length v = 3%nat /\
  (forall j, j <> l -> nth j v [] = nth j vb []) /\
  exists pre w, nth l vb [] = pre ++ [w] /\ nth l v [] = pre ++ [change w].

Lemma ncmp_eq x y : Nat.compare x y = Eq <-> x = y.
Proof. apply Nat.compare_eq_iff. Qed.
Lemma order_leb_spec a b : order_leb a b = true <-> not_after a b.
Proof.
  unfold order_leb, not_after. destruct (lcmp Nat.compare a b) eqn:E.
  - apply (lcmp_eq _ ncmp_eq) in E as ->. split; [|reflexivity]. intros _. left. exists []. now rewrite app_nil_r.
  - split; [|reflexivity]. intros _. apply (lcmp_lt_iff _ ncmp_eq) in E as (p & H).
    destruct H as [(c & r & -> & ->)|(c & r & x & r' & -> & -> & H)].
    + left. eauto.
    + right. apply Nat.compare_lt_iff in H. exists p, c, x, r, r'. auto.
  - split; [discriminate|]. intros H.
    assert (X : lcmp Nat.compare b a = Lt).
    { rewrite (lcmp_antisym Nat.compare (fun x y => Nat.compare_antisym x y) a b), E. reflexivity. }
    apply (lcmp_lt_iff _ ncmp_eq) in X as (p & X).
    assert (G : lcmp Nat.compare a b <> Gt); [|congruence].
    destruct H as [(r & ->)|(q & x & y & r & s & -> & -> & L)].
    + clear. induction a as [|x a IH]; cbn; [now destruct r|]. now rewrite Nat.compare_refl.
    + clear - L. induction q as [|z q IH]; cbn.
      * apply Nat.compare_lt_iff in L. rewrite L. discriminate.
      * now rewrite Nat.compare_refl.
Qed.

Lemma shift_spec {W} (bump drop : nat -> nat -> W -> W) nb n e vb v : length vb = 3%nat -> shift_key bump drop nb n e vb = Ok v ->
  ((4 <= t_level e)%nat /\ v = vb) \/
  ((t_level e <= 3)%nat /\
   last_changed (if N.eqb (t_before e) 0 then bump nb n
                 else if N.eqb (t_before e) (N.of_nat (t_level e)) then drop nb n else bump nb n)
     (match t_level e with O => 2%nat | S i => i end) vb v).
Proof.
  intros L H. unfold shift_key in H. destruct (Nat.ltb (t_level e) 4) eqn:E4.
  - right. apply Nat.ltb_lt in E4. split; [lia|]. rewrite L in H.
    change (3 - 1)%nat with 2%nat in H.
    set (i := match t_level e with O => 2%nat | S i => i end) in *.
    assert (Hi : (i < 3)%nat) by (unfold i; destruct (t_level e); lia).
    cbv zeta in H. unfold level in H.
    destruct (nth_error vb i) as [l|] eqn:El; cbn [bind] in H; [|discriminate].
    apply (nth_error_nth _ _ []) in El.
    set (f := if (N.eqb (t_before e) 0 || negb (N.eqb (t_before e) (N.of_nat (t_level e))))%bool
              then bump nb n else drop nb n) in *.
    replace (if N.eqb (t_before e) 0 then bump nb n
                 else if N.eqb (t_before e) (N.of_nat (t_level e)) then drop nb n else bump nb n) with f.
    2:{ unfold f. destruct (N.eqb (t_before e) 0); [reflexivity|]. now destruct (N.eqb (t_before e) (N.of_nat (t_level e))). }
    destruct (upd_last f l) as [l'|] eqn:Eu; [|discriminate]. injection H as <-.
    apply upd_last_spec in Eu as (p & x & -> & ->).
    repeat split; auto; [now rewrite set_nth_length| |].
    + intros j Hj. apply nth_set_nth_other. auto.
    + exists p, x. split; [exact El|]. apply nth_set_nth_same. lia.
  - left. apply Nat.ltb_ge in E4. injection H as <-. auto.
Qed.


Section Facts.
  Context {W : Type} (wcmp : W -> W -> comparison) (zero one : W) (bump drop : nat -> nat -> W -> W).
  Variable d : list (pystr * list (W * W * W)).
  Variable elts : list (pystr * tel).
  Hypothesis PT : plain_tailoring d elts.
  Notation nb := (num_befores elts).
  Notation n := (length elts).

  Lemma elts0_eq : map bare_p elts = elts.
  Proof.
    assert (H : forall k e, In (k, e) elts -> t_short e = None /\ t_key e = None) by (intros k e X; apply PT in X; tauto).
    clear PT. induction elts as [|[k e] l IH]; [reflexivity|]. cbn [map].
    rewrite IH by (intros k' e' Hin; apply (H k' e'); now right). f_equal. unfold bare_p. cbn. f_equal.
    destruct (H k e (or_introl eq_refl)) as (H2 & H3). destruct e; cbn in *. unfold bare. cbn. now subst.
  Qed.
  Lemma get_in k e : dget streq elts k = Some e <-> In (k, e) elts.
  Proof.
    split; [apply dget_In, streq_spec|]. apply (dget_NoDup_In _ streq_spec). exact (proj1 PT).
  Qed.
  Lemma noexp0 k e : dget streq elts k = Some e -> t_exp e = [].
  Proof. rewrite get_in. intros H. now apply PT in H. Qed.
  Lemma allknown0 k e : dget streq elts k = Some e -> known_base d elts e.
  Proof.
    rewrite get_in. intros H. apply PT in H as (_ & _ & _ & [H|[H|H]]); [now left|right; left|right; right];
      now apply (dmem_spec _ streq_spec).
  Qed.

  Notation st0 := (TSt elts [] false).
  Lemma top0 force : top wcmp zero bump drop d nb n elts force st0.
  Proof.
    assert (S0 : shape elts (st0 : tstate (W := W))) by (unfold shape; cbn; exact elts0_eq).
    split; [split; [exact S0|]|].
    - intros _ k e H Hs. cbn in H. apply get_in in H. apply PT in H. tauto.
    - intros _ k e H Hs. cbn in H. apply get_in in H. apply PT in H. tauto.
  Qed.

  Notation TK := (tk wcmp zero bump drop d nb n elts).
  Notation go force fuel := (setSortKeys wcmp zero one bump drop d force fuel st0).

  Lemma by_order_in k : In k (by_order elts) <-> In k (dkeys elts).
  Proof.
    unfold by_order, dkeys. rewrite !in_map_iff. split; intros (p & E & H); exists p; (split; [exact E|]);
      apply in_isort in H || apply in_isort; exact H.
  Qed.

  Lemma go_good force fuel st' : go force fuel = Ok st' ->
    shape elts st' /\ forall k e, dget streq elts k = Some e -> good wcmp zero bump drop d nb n elts st' k.
  Proof.
    unfold setSortKeys. cbn [ts_elts ts_sorted negb orb andb].
    destruct (Nat.ltb 0 n) eqn:En.
    - destruct (set_all _ _ _ _ _ _ _ _ _ _ _ _) as [st1|] eqn:E; [|discriminate]. cbn [bind]. intros H. injection H as <-.
      apply (set_all_ok wcmp zero one bump drop d nb n elts noexp0 allknown0) in E as ((I & _) & _ & A); [|apply top0].
      split; [exact (proj1 I)|]. intros k e He.
      assert (G : good wcmp zero bump drop d nb n elts st1 k).
      { apply A. apply by_order_in. apply (dget_Some_iff _ streq_spec). eauto. }
      exact G.
    - intros H. injection H as <-. split; [exact elts0_eq|]. intros k e He. exfalso.
      apply Nat.ltb_ge in En. destruct elts; [discriminate|cbn in En; lia].
  Qed.

  Lemma dkey_len k v : dkey wcmp zero d k = Ok v -> length v = 3%nat.
  Proof.
    unfold dkey, ducetSortKey. destruct (sortkey_loop _ _ _ _) as [[[a b] c]|]; [|discriminate]. cbn [bind].
    destruct (Nat.eqb _ _); intros H; injection H as <-; reflexivity.
  Qed.
  Lemma shift_len e vb v : length vb = 3%nat -> shift_key bump drop nb n e vb = Ok v -> length v = 3%nat.
  Proof. intros L H. destruct (shift_spec bump drop nb n e vb v L H) as [[_ ->]|[_ H']]; [exact L|]. apply H'. Qed.
  Lemma tk_len k v : TK k v -> length v = 3%nat.
  Proof.
    induction 1 as [k e b vb v He Hb Ho Ht IH Hs|k e vb v He Hb Hd Hs].
    - eapply shift_len; eassumption.
    - eapply shift_len; [eapply dkey_len|]; eassumption.
  Qed.
End Facts.

(** * C58: where an element ends up *)
(** The key of the base of [e]: its tailored key when the base is an element given no later, else its DUCET key. *)
Definition key_of_base {W} (wcmp : W -> W -> comparison) zero (d : list (pystr * list (W * W * W))) elts
  (st : tstate (W := W)) (e : tel) (vb : list (list W)) : Prop :=
  (tailored_base elts e /\ key_at st (t_base e) = Some vb) \/
  (~ tailored_base elts e /\ dkey wcmp zero d (t_base e) = Ok vb).

Theorem C58_key :
  forall W (wcmp : W -> W -> comparison) (zero one : W) bump drop d elts force fuel st',
    plain_tailoring d elts ->
    setSortKeys wcmp zero one bump drop d force fuel (TSt elts [] false) = Ok st' ->
    forall k e, In (k, e) elts ->
    exists vb v, key_of_base wcmp zero d elts st' e vb /\ key_at st' k = Some v /\ short_at st' k = Some v /\
      ((4 <= t_level e)%nat -> v = vb) /\
      (forall l, t_level e = S l -> (l < 3)%nat ->
         (t_before e = N.of_nat (S l) -> last_changed (drop (num_befores elts) (length elts)) l vb v) /\
         (t_before e <> N.of_nat (S l) -> last_changed (bump (num_befores elts) (length elts)) l vb v)) /\
      (t_level e = 0%nat -> last_changed (bump (num_befores elts) (length elts)) 2 vb v).
Proof.
  intros W wcmp zero one bump drop d elts force fuel st' PT H k e Hin.
  destruct (go_good wcmp zero one bump drop d elts PT force fuel st' H) as [Sh G].
  assert (KEY : forall k' v', tk wcmp zero bump drop d (num_befores elts) (length elts) elts k' v' ->
                key_at st' k' = Some v' /\ short_at st' k' = Some v').
  { intros k' v' T.
    assert (X : exists e', dget streq elts k' = Some e') by (inversion T; eauto). destruct X as (e' & He').
    destruct (G k' e' He') as (e1 & r & v1 & A1 & A2 & A3 & A4 & A5 & A6 & A7).
    unfold key_at, short_at. rewrite A1, A2, A3, A6. rewrite (tk_det _ _ _ _ _ _ _ _ _ _ A7 _ T). auto. }
  apply (get_in d elts PT) in Hin.
  destruct (G k e Hin) as (e1 & r & v & _ & _ & _ & _ & _ & _ & T).
  destruct (KEY k v T) as [K1 K2].
  assert (MAIN : exists vb, key_of_base wcmp zero d elts st' e vb /\ length vb = 3%nat /\
             shift_key bump drop (num_befores elts) (length elts) e vb = Ok v).
  { inversion T as [k1 e2 b vb v1 He1 Hb Ho Ht Hs|k1 e2 vb v1 He1 Hb Hd Hs]; subst;
      rewrite Hin in He1; injection He1 as <-; exists vb; (split; [|split; [|exact Hs]]).
    - left. split; [|now apply KEY]. exists b. split; [now apply (get_in d elts PT)|now apply order_leb_spec].
    - eapply tk_len; eassumption.
    - right. split; [|exact Hd]. intros (b & Hb1 & Hb2). apply (get_in d elts PT) in Hb1. apply order_leb_spec in Hb2.
      rewrite (Hb _ Hb1) in Hb2. discriminate.
    - eapply dkey_len; eassumption. }
  destruct MAIN as (vb & KB & L & HS). exists vb, v. split; [exact KB|]. split; [exact K1|]. split; [exact K2|].
  destruct (shift_spec bump drop _ _ e vb v L HS) as [[H4 ->]|[H3 LC]].
  - split; [auto|]. split; [intros l E Hl|intros E]; lia.
  - split; [lia|]. split.
    + intros l E Hl. rewrite E in LC. split; intros B.
      * rewrite B in LC. rewrite N.eqb_refl in LC. destruct (N.eqb_spec (N.of_nat (S l)) 0) as [X|X]; [lia|exact LC].
      * destruct (N.eqb (t_before e) 0); [exact LC|]. destruct (N.eqb_spec (t_before e) (N.of_nat (S l))) as [X|X]; [contradiction|exact LC].
    + intros E. rewrite E in LC. destruct (N.eqb (t_before e) 0) eqn:E0; [exact LC|].
      change (N.of_nat 0) with 0%N in LC. rewrite E0 in LC. exact LC.
Qed.

Section Change.
  Context {W : Type} (wcmp : W -> W -> comparison) (lt : W -> W -> Prop) (zero : W).
  Hypothesis L : lawful wcmp lt.
  Notation sz := (stripzero wcmp zero).
  Lemma sz_snoc p x : x <> zero -> sz (p ++ [x]) = p ++ [x].
  Proof.
    intros H. pose proof (sz_app wcmp zero (law_eq wcmp lt L) (p ++ [x]) 0) as X. cbn [repeat] in X.
    rewrite app_nil_r in X. apply X. intros (u & E). apply app_inj_tail in E as [_ E]. contradiction.
  Qed.
  Lemma sz_snoc_zero p : sz (p ++ [zero]) = sz p.
  Proof.
    destruct (sz_spec wcmp zero (law_eq wcmp lt L) p) as [A (m & B)].
    rewrite B at 1. rewrite <- app_assoc. change [zero] with (repeat zero 1). rewrite <- repeat_app.
    apply sz_app; [apply (law_eq wcmp lt L)|exact A].
  Qed.
  Lemma change_lt p w w' : lt w w' -> w' <> zero -> lcmp wcmp (sz (p ++ [w])) (sz (p ++ [w'])) = Lt.
  Proof.
    intros H N. rewrite (sz_snoc p w') by exact N. apply (lcmp_lt_iff wcmp (law_eq wcmp lt L)).
    destruct (wcmp w zero) eqn:E.
    - apply (law_eq wcmp lt L) in E as ->. rewrite sz_snoc_zero.
      destruct (sz_spec wcmp zero (law_eq wcmp lt L) p) as [_ (m & B)].
      exists (sz p). left. destruct m as [|m].
      + exists w', []. cbn in B. rewrite app_nil_r in B. now rewrite <- B.
      + exists zero, (repeat zero m ++ [w']). split; [reflexivity|]. rewrite B at 1. now rewrite <- app_assoc.
    - exists p. right. exists w, [], w', []. rewrite sz_snoc by (intros ->; rewrite (proj2 (law_eq wcmp lt L _ _) eq_refl) in E; discriminate).
      repeat split; auto. now apply (law_lt wcmp lt L).
    - exists p. right. exists w, [], w', []. rewrite sz_snoc by (intros ->; rewrite (proj2 (law_eq wcmp lt L _ _) eq_refl) in E; discriminate).
      repeat split; auto. now apply (law_lt wcmp lt L).
  Qed.
  Lemma diff_change l (vb v : list (list W)) : length vb = 3%nat -> length v = 3%nat -> (l < 3)%nat ->
    (forall j, j <> l -> nth j v [] = nth j vb []) ->
    lcmp wcmp (sz (nth l vb [])) (sz (nth l v [])) = Lt ->
    diffLevel wcmp zero (Some vb) (Some v) = Ok (Z.of_nat l + 1)%Z /\
    diffLevel wcmp zero (Some v) (Some vb) = Ok (- (Z.of_nat l + 1))%Z.
  Proof.
    intros H1 H2 Hl H3 H4. apply len3 in H1 as (a & b & c & ->). apply len3 in H2 as (x & y & z & ->).
    assert (H5 : lcmp wcmp (sz (nth l [x; y; z] [])) (sz (nth l [a; b; c] [])) = Gt).
    { rewrite (lcmp_antisym wcmp (law_antisym wcmp lt L) (sz (nth l [a; b; c] []))), H4. reflexivity. }
    assert (RF : forall u, lcmp wcmp (sz u) (sz u) = Eq) by (intros u; apply (lcmp_refl wcmp (law_eq wcmp lt L))).
    destruct l as [|[|[|l]]]; [| | |lia]; cbn [nth] in *; unfold diffLevel; cbn [diff_from level nth_error bind].
    - rewrite H4, H5. auto.
    - specialize (H3 0%nat ltac:(lia)). cbn in H3. subst x. rewrite RF, H4, H5. auto.
    - pose proof (H3 0%nat ltac:(lia)) as E0. pose proof (H3 1%nat ltac:(lia)) as E1. cbn in E0, E1. subst x y.
      rewrite !RF, H4, H5. auto.
  Qed.
End Change.

(** An element sorts after its base (before it, with a matching [before]), and first differs from it at the level
    of its relation. *)
Theorem C58_relation :
  forall W (wcmp : W -> W -> comparison) (lt : W -> W -> Prop) (zero one : W) bump drop d elts force fuel st',
    lawful wcmp lt ->
    (forall a b w, lt w (bump a b w)) -> (forall a b w, lt (drop a b w) w) ->
    plain_tailoring d elts ->
    setSortKeys wcmp zero one bump drop d force fuel (TSt elts [] false) = Ok st' ->
    forall k e, In (k, e) elts ->
    exists vb v, key_of_base wcmp zero d elts st' e vb /\ key_at st' k = Some v /\
      ((4 <= t_level e)%nat -> diffLevel wcmp zero (Some vb) (Some v) = Ok 4%Z) /\
      (forall l, t_level e = S l -> (l < 3)%nat -> t_before e <> N.of_nat (S l) ->
         ~ lt (last (nth l vb []) zero) zero ->
         diffLevel wcmp zero (Some vb) (Some v) = Ok (Z.of_nat (S l))) /\
      (forall l, t_level e = S l -> (l < 3)%nat -> t_before e = N.of_nat (S l) ->
         last (nth l vb []) zero <> zero ->
         diffLevel wcmp zero (Some vb) (Some v) = Ok (- Z.of_nat (S l))%Z).
Proof.
  intros W wcmp lt zero one bump drop d elts force fuel st' L HB HD PT H k e Hin.
  destruct (C58_key W wcmp zero one bump drop d elts force fuel st' PT H k e Hin) as
    (vb & v & KB & K1 & _ & H4 & H3 & _).
  exists vb, v. split; [exact KB|]. split; [exact K1|]. split; [|split].
  - intros X. rewrite (H4 X). 
    assert (L3 : length vb = 3%nat).
    { destruct KB as [[_ K]|[_ K]]; [|eapply dkey_len; eassumption].
      rewrite <- (H4 X) in *. clear - PT H K1 Hin.
      destruct (go_good wcmp zero one bump drop d elts PT force fuel st' H) as [_ G].
      apply (get_in d elts PT) in Hin.
      destruct (G k e Hin) as (e1 & r & v1 & A1 & A2 & A3 & A4 & A5 & A6 & A7).
      unfold key_at in K1. rewrite A1, A3, A6 in K1. injection K1 as ->. eapply tk_len; eassumption. }
    apply len3 in L3 as (a & b & c & ->). unfold diffLevel. cbn [diff_from level nth_error bind].
    now rewrite !(lcmp_refl wcmp (law_eq wcmp lt L)).
  - intros l E Hl B NN. destruct (proj2 (H3 l E Hl) B) as (L1 & L2 & HO & pre & w & E1 & E2).
    replace (Z.of_nat (S l)) with (Z.of_nat l + 1)%Z by lia.
    apply (diff_change wcmp lt zero L); auto. rewrite E1, E2. apply (change_lt wcmp lt zero L); [apply HB|].
    intros X. apply NN. rewrite E1, last_last. rewrite <- X. apply HB.
  - intros l E Hl B NN. destruct (proj1 (H3 l E Hl) B) as (L1 & L2 & HO & pre & w & E1 & E2).
    replace (- Z.of_nat (S l))%Z with (- (Z.of_nat l + 1))%Z by lia.
    apply (diff_change wcmp lt zero L l v vb); auto; [intros j Hj; symmetry; now apply HO|].
    rewrite E1, E2. apply (change_lt wcmp lt zero L); [apply HD|]. rewrite E1, last_last in NN. exact NN.
Qed.

(** It succeeds when chains of bases end and the DUCET key of every base has weights at all levels. *)
Theorem C58_succeeds :
  forall W (wcmp : W -> W -> comparison) (zero one : W) bump drop d elts force fuel (rank : pystr -> nat),
    plain_tailoring d elts ->
    (forall k e, In (k, e) elts -> tailored_base elts e -> (rank (t_base e) < rank k)%nat) ->
    (forall k e, In (k, e) elts -> ~ tailored_base elts e ->
       exists a b c, dkey wcmp zero d (t_base e) = Ok [a; b; c] /\ a <> [] /\ b <> [] /\ c <> []) ->
    (length elts <= fuel)%nat ->
    exists st', setSortKeys wcmp zero one bump drop d force fuel (TSt elts [] false) = Ok st'.
Proof.
  intros W wcmp zero one bump drop d elts force fuel rank PT HR HD HF.
  pose (nb := num_befores elts). pose (n := length elts).
  assert (DEC : forall e, tailored_base elts e \/ ~ tailored_base elts e).
  { intros e. destruct (dget streq elts (t_base e)) as [b|] eqn:Eb.
    - destruct (order_leb (t_order b) (t_order e)) eqn:Eo.
      + left. exists b. split; [now apply (get_in d elts PT)|now apply order_leb_spec].
      + right. intros (b' & H1 & H2). apply (get_in d elts PT) in H1. rewrite Eb in H1. injection H1 as <-.
        apply order_leb_spec in H2. congruence.
    - right. intros (b' & H1 & _). apply (get_in d elts PT) in H1. congruence. }
  assert (SH : forall (e : tel) a b c, a <> [] -> b <> [] -> c <> [] -> exists a' b' c',
     shift_key bump drop nb n e [a; b; c] = Ok [a'; b'; c'] /\ a' <> [] /\ b' <> [] /\ c' <> []).
  { intros e a b c Ha Hb Hc. unfold shift_key. destruct (Nat.ltb (t_level e) 4) eqn:E4; [|eauto 8].
    apply Nat.ltb_lt in E4. cbv zeta.
    match goal with |- context [upd_last ?g _] => set (f := g) end.
    assert (U : forall l, l <> [] -> exists l', upd_last f l = Some l' /\ l' <> []).
    { intros l Hl. destruct (exists_last Hl) as (p & x & ->). exists (p ++ [f x]). split; [apply upd_last_spec; eauto|].
      now destruct p. }
    destruct (U a Ha) as (a' & Ua & Na). destruct (U b Hb) as (b' & Ub & Nb). destruct (U c Hc) as (c' & Uc & Nc).
    destruct (t_level e) as [|[|[|[|l]]]]; [| | | |lia]; cbn [length Nat.sub level nth_error bind];
      rewrite ?Ua, ?Ub, ?Uc; cbn [set_nth]; eauto 8. }
  assert (TK : forall m k e, (rank k <= m)%nat -> In (k, e) elts -> exists a b c,
     tk wcmp zero bump drop d nb n elts k [a; b; c] /\ a <> [] /\ b <> [] /\ c <> []).
  { induction m as [m IH] using lt_wf_ind. intros k e Hm Hin. destruct (DEC e) as [TB|TB].
    - pose proof (HR k e Hin TB) as HL. destruct TB as (b & Hb & Ho).
      destruct (IH (rank (t_base e)) ltac:(lia) (t_base e) b ltac:(lia) Hb) as (x & y & z & T & Hx & Hy & Hz).
      destruct (SH e x y z Hx Hy Hz) as (x' & y' & z' & HS & Hx' & Hy' & Hz'). exists x', y', z'.
      split; [|auto]. eapply tk_base; [apply (get_in d elts PT); exact Hin|apply (get_in d elts PT); exact Hb| |exact T|exact HS].
      now apply order_leb_spec.
    - destruct (HD k e Hin TB) as (x & y & z & HK & Hx & Hy & Hz).
      destruct (SH e x y z Hx Hy Hz) as (x' & y' & z' & HS & Hx' & Hy' & Hz'). exists x', y', z'.
      split; [|auto]. eapply tk_root; [apply (get_in d elts PT); exact Hin| |exact HK|exact HS].
      intros b Hb. apply not_true_is_false. intros Ho. apply TB. exists b.
      split; [now apply (get_in d elts PT)|now apply order_leb_spec]. }
  assert (ALL : forall ks st, top wcmp zero bump drop d nb n elts force st -> (forall k, In k ks -> In k (dkeys elts)) ->
    exists st', set_all wcmp zero one bump drop d nb n force fuel st ks = Ok st').
  { induction ks as [|k ks IH]; intros st T HK; cbn [set_all]; [eauto|].
    destruct (proj2 (dget_Some_iff _ streq_spec elts k) (HK k (or_introl eq_refl))) as (e0 & E0).
    destruct T as [I T]. pose proof (dget_map_bare (ts_elts st) k) as X.
    rewrite (proj1 I : map bare_p (ts_elts st) = elts), E0 in X.
    destruct (dget streq (ts_elts st) k) as [e|] eqn:He; [|discriminate]. cbn [option_map] in X. injection X as ->.
    rewrite (set_one_run wcmp zero one bump drop d nb n elts (noexp0 d elts PT) st k e);
      [|apply I|exact He|eapply allknown0; eassumption].
    apply (get_in d elts PT) in E0.
    destruct (TK (rank k) k (bare e) (le_n _) E0) as (a & b & c & TKK & _).
    apply tk_tkd in TKK as (m & TKD).
    destruct (run_progress wcmp zero one bump drop d nb n elts (noexp0 d elts PT) (allknown0 d elts PT) force m fuel st k [a; b; c] I TKD) as (st1 & R).
    - apply tkd_bound in TKD; [lia|..]; [exact (noexp0 d elts PT)|exact (allknown0 d elts PT)].
    - intros Ff k' e' m' v' He' Hk' _ _. exact (T Ff k' e' He' Hk').
    - rewrite R. cbn [bind]. apply IH; [|intros k' Hk'; apply HK; now right].
      assert (SA : set_all wcmp zero one bump drop d nb n force fuel st [k] = Ok st1).
      { cbn [set_all]. rewrite (set_one_run wcmp zero one bump drop d nb n elts (noexp0 d elts PT) st k e);
          [now rewrite R|apply I|exact He|]. apply (get_in d elts PT) in E0. eapply allknown0; eassumption. }
      apply (set_all_ok wcmp zero one bump drop d nb n elts (noexp0 d elts PT) (allknown0 d elts PT)) in SA;
        [apply SA|split; assumption]. }
  unfold setSortKeys. cbn [ts_elts ts_sorted negb orb andb]. destruct (Nat.ltb 0 (length elts)); [|eauto].
  destruct (ALL (by_order elts) (TSt elts [] false)) as (st' & E).
  - apply top0; assumption.
  - intros k Hk. now apply by_order_in.
  - unfold nb, n in E. rewrite E. cbn [bind]. eauto.
Qed.
