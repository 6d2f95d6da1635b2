(** Proofs about collations from a simple list of items: the keys the items get. *)
From Verif Require Import Py PyFacts M_UnicodeSets P_UnicodeSets M_Collation P_Collation P_Collation2 T_Collation
  M_Tailor P_Tailor T_Tailor M_Simple P_Simple T_AsICU.
From Coq Require Import Sorting.Sorted.
Open Scope nat_scope.

Section Keys.
  Context {W : Type} (wcmp : W -> W -> comparison) (zero one : W) (bump drop : nat -> nat -> W -> W).
  Variable d : list (pystr * list (W * W * W)).
  Variable elts : list (pystr * tel).
  Hypothesis PT : plain_tailoring d elts.
  Notation nb := (num_befores elts).
  Notation n := (length elts).
  Notation TK := (tk wcmp zero bump drop d nb n elts).

  (** [setSortKeys] gives every element the key [tk] says, also when it is told to start again *)
  Lemma set_keys_both force fuel st : shape elts st -> (force = true \/ st = TSt elts [] false) ->
    (forall k, In k (map fst elts) -> exists v, TK k v) -> n <= fuel ->
    exists st', setSortKeys wcmp zero one bump drop d force fuel st = Ok st' /\ shape elts st' /\
      forall k v, TK k v -> key_at st' k = Some v /\ short_at st' k = Some v.
  Proof.
    intros Sh FS HT HF.
    assert (T0 : top wcmp zero bump drop d nb n elts force st).
    { destruct FS as [->| ->]; [|now apply top0]. split; [split; [exact Sh|discriminate]|discriminate]. }
    assert (ALL : forall ks st, top wcmp zero bump drop d nb n elts force st -> (forall k, In k ks -> In k (dkeys elts)) ->
      exists st', set_all wcmp zero one bump drop d nb n force fuel st ks = Ok st').
    { induction ks as [|k ks IH]; intros s T HK; cbn [set_all]; [eauto|].
      destruct (proj2 (dget_Some_iff _ streq_spec elts k) (HK k (or_introl eq_refl))) as (e0 & E0).
      destruct T as [I T]. pose proof (dget_map_bare (ts_elts s) k) as X.
      rewrite (proj1 I : map bare_p (ts_elts s) = elts), E0 in X.
      destruct (dget streq (ts_elts s) k) as [e|] eqn:He; [|discriminate]. cbn [option_map] in X. injection X as ->.
      rewrite (set_one_run wcmp zero one bump drop d nb n elts (noexp0 d elts PT) s k e);
        [|apply I|exact He|eapply allknown0; eassumption].
      destruct (HT k (HK k (or_introl eq_refl))) as (v & TKK).
      apply tk_tkd in TKK as (m & TKD).
      destruct (run_progress wcmp zero one bump drop d nb n elts (noexp0 d elts PT) (allknown0 d elts PT) force m fuel s k v I TKD) as (st1 & R).
      - apply tkd_bound in TKD; [lia|..]; [exact (noexp0 d elts PT)|exact (allknown0 d elts PT)].
      - intros Ff k' e' m' v' He' Hk' _ _. exact (T Ff k' e' He' Hk').
      - rewrite R. cbn [bind]. apply IH; [|intros k' Hk'; apply HK; now right].
        assert (SA : set_all wcmp zero one bump drop d nb n force fuel s [k] = Ok st1).
        { cbn [set_all]. rewrite (set_one_run wcmp zero one bump drop d nb n elts (noexp0 d elts PT) s k e);
            [now rewrite R|apply I|exact He|]. eapply allknown0; eassumption. }
        apply (set_all_ok wcmp zero one bump drop d nb n elts (noexp0 d elts PT) (allknown0 d elts PT)) in SA;
          [apply SA|split; assumption]. }
    assert (LN : length (ts_elts st) = n) by (transitivity (length (map bare_p (ts_elts st))); [now rewrite map_length|now rewrite Sh]).
    assert (NBE : num_befores (ts_elts st) = nb).
    { transitivity (num_befores (map bare_p (ts_elts st))); [|now rewrite Sh]. unfold num_befores. clear. induction (ts_elts st) as [|[k e] l IH]; [reflexivity|].
      cbn [map filter bare_p fst snd bare t_before]. destruct (N.ltb 0 (t_before e)); cbn [length]; now rewrite IH. }
    assert (KI : forall k, In k (by_order (ts_elts st)) <-> In k (dkeys elts)).
    { intros k. rewrite by_order_in. unfold dkeys. rewrite <- Sh, map_map. unfold bare_p. cbn [fst]. reflexivity. }
    unfold setSortKeys. rewrite LN, NBE.
    assert (C : (negb (ts_sorted st) || force)%bool = true).
    { destruct FS as [->| ->]; [apply orb_true_r|reflexivity]. }
    rewrite C. cbn [andb]. destruct (Nat.ltb_spec 0 n) as [L|L].
    - destruct (ALL (by_order (ts_elts st)) st T0) as (st' & E); [intros k Hk; now apply KI|].
      rewrite E. cbn [bind]. eexists. split; [reflexivity|].
      apply (set_all_ok wcmp zero one bump drop d nb n elts (noexp0 d elts PT) (allknown0 d elts PT)) in E as ((I & _) & _ & A); [|exact T0].
      split; [exact (proj1 I)|]. intros k v T.
      assert (X : exists e', dget streq elts k = Some e') by (inversion T; eauto).
      destruct (A k) as (e1 & r & v1 & A1 & A2 & A3 & A4 & A5 & A6 & A7).
      { apply KI. now apply (dget_Some_iff _ streq_spec). }
      unfold key_at, short_at. cbn [ts_elts]. rewrite A1, A2, A3. unfold deref in *. cbn [ts_cells]. rewrite A6.
      rewrite (tk_det _ _ _ _ _ _ _ _ _ _ A7 _ T). auto.
    - exists st. split; [reflexivity|]. split; [exact Sh|]. intros k v T.
      assert (X : exists e', dget streq elts k = Some e') by (inversion T; eauto). destruct X as (e & X).
      destruct elts; [discriminate|cbn in L; lia].
  Qed.
  Lemma set_keys force fuel st : shape elts st -> (force = true \/ st = TSt elts [] false) ->
    (forall k, In k (map fst elts) -> exists v, TK k v) -> n <= fuel ->
    exists st', setSortKeys wcmp zero one bump drop d force fuel st = Ok st' /\ shape elts st' /\
      forall k v, TK k v -> key_at st' k = Some v.
  Proof.
    intros H1 H2 H3 H4. destruct (set_keys_both force fuel st H1 H2 H3 H4) as (st' & E & Sh & K).
    exists st'. repeat split; auto. intros k v T. now apply K.
  Qed.

  (** ** chains of items *)
  Variable lt : W -> W -> Prop.
  Hypothesis LW : lawful wcmp lt.
  Hypothesis UP : forall a b w, lt w (bump a b w).
  (** weights at all levels, the last ones not negative *)
  Definition sound (v : list (list W)) : Prop :=
    length v = 3 /\ forall j, j < 3 -> nth j v [] <> [] /\ ~ lt (last (nth j v []) zero) zero.
  Definition follows (v v' : list (list W)) : Prop :=
    sound v /\ sound v' /\ sk_lt wcmp zero v (Some v') = Ok true.
  Definition item_tk (x : pystr) (v : list (list W)) : Prop :=
    TK x v \/ (dget streq elts x = None /\ dkey wcmp zero d x = Ok v).
  Hypothesis FLAT : forall k e, In (k, e) elts -> t_order e = [0].

  Lemma diff_lt vb v z : (0 < z)%Z -> diffLevel wcmp zero (Some v) (Some vb) = Ok (- z)%Z -> sk_lt wcmp zero vb (Some v) = Ok true.
  Proof. intros Z E. unfold sk_lt, sk_cmp. rewrite E. cbn [bind]. f_equal. apply Z.ltb_lt. lia. Qed.

  Lemma link_step s e b vb l : In (s, e) elts -> t_base e = b -> t_before e = 0%N -> t_level e = S l -> l < 3 ->
    item_tk b vb -> sound vb ->
    exists v, TK s v /\ sound v /\ last_changed (bump nb n) l vb v /\ diffLevel wcmp zero (Some vb) (Some v) = Ok (Z.of_nat (S l)) /\
      sk_lt wcmp zero vb (Some v) = Ok true.
  Proof.
    intros Hin Hb H0 HL Hl IT [L3 SV].
    assert (SHF : exists v, shift_key bump drop nb n e vb = Ok v).
    { unfold shift_key. rewrite HL. replace (Nat.ltb (S l) 4) with true by (symmetry; apply Nat.ltb_lt; lia). cbv zeta.
      destruct (SV l Hl) as [NE _]. unfold level. rewrite (nth_error_nth' vb []) by lia. cbn [bind].
      rewrite H0. cbn [N.eqb orb].
      destruct (exists_last NE) as (p & x & E).
      rewrite (proj2 (upd_last_spec (bump nb n) _ (p ++ [bump nb n x]))); eauto. }
    destruct SHF as (v & HS). exists v.
    destruct (shift_spec bump drop nb n e vb v L3 HS) as [[X _]|[_ LC]]; [lia|]. rewrite HL, H0 in LC. cbn [N.eqb] in LC.
    assert (T : TK s v).
    { apply (get_in d elts PT) in Hin. destruct IT as [T|[HN HD]].
      - assert (X : exists eb, dget streq elts b = Some eb) by (inversion T; eauto). destruct X as (eb & Eb).
        rewrite <- Hb in *. eapply tk_base; [exact Hin|exact Eb| |exact T|exact HS].
        apply (get_in d elts PT) in Eb, Hin. rewrite (FLAT _ _ Eb), (FLAT _ _ Hin). reflexivity.
      - rewrite <- Hb in *. eapply tk_root; [exact Hin| |exact HD|exact HS]. intros x Hx. congruence. }
    split; [exact T|]. pose proof LC as (_ & Lv & HO & pre & w & E1 & E2).
    destruct (SV l Hl) as [_ NN]. rewrite E1, last_last in NN.
    assert (P : bump nb n w <> zero) by (intros X; apply NN; rewrite <- X; apply UP).
    split; [|split; [exact LC|]].
    - split; [exact Lv|]. intros j Hj. destruct (Nat.eq_dec j l) as [->|N]; [|rewrite HO by exact N; now apply SV].
      rewrite E2, last_last. split; [now destruct pre|]. intros X. apply NN. exact (proj2 (proj2 LW) _ _ _ (UP _ _ _) X).
    - destruct (diff_change wcmp lt zero LW l vb v L3 Lv Hl HO) as [D1 D2].
      { rewrite E1, E2. apply (change_lt wcmp lt zero LW); [apply UP|exact P]. }
      split; [rewrite D1; f_equal; lia|]. eapply (diff_lt vb v (Z.of_nat l + 1)); [lia|exact D2].
  Qed.

  Lemma follows_trans a b c : follows a b -> follows b c -> follows a c.
  Proof.
    intros (A1 & A2 & A3) (B1 & B2 & B3). split; [exact A1|]. split; [exact B2|].
    destruct (C06_strict_weak_order W wcmp lt zero LW) as (_ & T & _). eapply (T a b c); try eassumption; [apply A1|apply A2|apply B2].
  Qed.

  (** the keys along a chain *)
  Lemma chain_keys pre w : forall l b vb a, (forall p, In p (linked b l) -> In p elts) ->
    (forall p, In p l -> 1 <= snd p <= 3) -> item_tk b vb -> sound vb ->
    nth 0 vb [] = pre ++ [Nat.iter a (bump nb n) w] ->
    exists vs, Forall2 TK (map fst l) vs /\ Sorted follows (vb :: vs) /\
      Forall2 (fun p q => diffLevel wcmp zero (Some (fst q)) (Some (snd q)) = Ok (Z.of_nat (snd p))) l (combine (vb :: vs) vs) /\
      Forall (fun v => exists a', a' <= a + length l /\ nth 0 v [] = pre ++ [Nat.iter a' (bump nb n) w]) vs.
  Proof.
    induction l as [|[s lv] l IH]; intros b vb a Sub LV IT SV EP.
    - exists []. repeat constructor.
    - cbn [linked] in Sub. pose proof (LV _ (or_introl eq_refl)) as Hlv. cbn [snd] in Hlv. destruct lv as [|l0]; [lia|].
      destruct (link_step s (TEl b (S l0) 0%N [0] [] None None) b vb l0 (Sub _ (or_introl eq_refl)) eq_refl eq_refl eq_refl
                  ltac:(lia) IT SV) as (v & T & SV' & LC & DL & SL).
      assert (EP' : exists a', a' <= a + 1 /\ nth 0 v [] = pre ++ [Nat.iter a' (bump nb n) w]).
      { destruct LC as (_ & _ & HO & p & u & E1 & E2). destruct l0 as [|l0].
        - rewrite EP in E1. apply app_inj_tail in E1 as [<- <-]. exists (S a). split; [lia|]. rewrite E2. reflexivity.
        - exists a. split; [lia|]. rewrite HO by lia. exact EP. }
      destruct EP' as (a' & Ha' & EP').
      destruct (IH s v a') as (vs & F2 & SS & FD & FP); auto.
      { intros p Hp. apply Sub. now right. }
      { intros p Hp. apply LV. now right. }
      { now left. }
      exists (v :: vs). split; [|split; [|split]].
      + constructor; assumption.
      + constructor; [exact SS|]. constructor. split; [exact SV|]. split; assumption.
      + cbn [combine]. constructor; [exact DL|exact FD].
      + constructor; [exists a'; cbn [length]; split; [lia|exact EP']|].
        eapply Forall_impl; [|exact FP]. intros x (a'' & H & H'). exists a''. cbn [length]. split; [lia|exact H'].
  Qed.
End Keys.
