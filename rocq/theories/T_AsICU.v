(** C61: a collation written as ICU rules reads back as the same tailoring. *)
From Coq Require Import QArith Qcanon Permutation Sorted.
From Verif Require Import Py PyFacts M_UnicodeSets P_UnicodeSets M_Collation P_CollEsc P_Collation P_Collation2 T_Collation
  M_Tailor P_Tailor T_Tailor T_Tailor2 M_TailorQ T_Tailor3 T_Tailor4 M_AsICU P_AsICU.
Open Scope nat_scope.

(** * Specification *)
(** [writable], [sane], [good_item] (which elements can be written), [agree] and [continues] (whose base is as good as
    the element before) are in P_AsICU. *)

(** What is read back: the same elements in the order they were written, with the same level, [before] mark and
    expansion. The base is the same too, or it is the element written just before, when that one agrees with the base up
    to the level of the relation (or stands for the same base with "="). *)
Inductive read_back {W} (zero : W) (st : tstate (W := W)) :
  option (pystr * tel) -> list (pystr * tel) -> list (pystr * celt) -> Prop :=
| rb_nil prev : read_back zero st prev [] []
| rb_cons prev k e its base before order c :
    (base = t_base e /\ before = t_before e) \/
    (continues zero st prev e /\ before = 0%N /\ exists pe, prev = Some (base, pe)) ->
    read_back zero st (Some (k, e)) its c ->
    read_back zero st prev ((k, e) :: its) ((k, CElt base (t_level e) before order (t_exp e)) :: c).
(** each entry is after the ones before it in the order of definition *)
Definition earlier (a b : pystr * celt) : Prop :=
  fst (ce_order (snd a)) < fst (ce_order (snd b)) \/
  fst (ce_order (snd a)) = fst (ce_order (snd b)) /\ snd (ce_order (snd a)) < snd (ce_order (snd b)).

Lemma flat_ents_back {W} (zero : W) st : forall prev its ps, pieces_for zero st prev its ps ->
  forall n i pk, (forall k e, prev = Some (k, e) -> pk = k) -> read_back zero st prev its (flat_ents n i pk ps).
Proof.
  induction 1 as [|prev rs sep k e its ps HC HS PF IH]; intros n i pk HP; [constructor|]. cbn [flat_ents].
  assert (X : forall k0 e0, Some (k, e) = Some (k0, e0) -> k = k0) by (intros ? ? X; now injection X).
  destruct rs.
  - constructor; [now left|]. now apply IH.
  - constructor; [|now apply IH]. right. specialize (HC eq_refl). split; [exact HC|]. split; [reflexivity|].
    destruct HC as [_ (pk' & pe & -> & _)]. rewrite (HP _ _ eq_refl). now exists pe.
Qed.
Lemma flat_ents_lower : forall ps n i pk x, In x (flat_ents n i pk ps) ->
  n < fst (ce_order (snd x)) \/ fst (ce_order (snd x)) = n /\ i <= snd (ce_order (snd x)).
Proof.
  induction ps as [|[[[rs sep] k] e] ps IH]; intros n i pk x H; [destruct H|]. cbn [flat_ents] in H.
  destruct rs; destruct H as [<-|H]; cbn [snd fst ce_order]; try lia; apply IH in H; lia.
Qed.
Lemma flat_ents_sorted : forall ps n i pk, StronglySorted earlier (flat_ents n i pk ps).
Proof.
  induction ps as [|[[[rs sep] k] e] ps IH]; intros n i pk; [constructor|]. cbn [flat_ents].
  destruct rs; (constructor; [apply IH|]); apply Forall_forall; intros x Hx; apply flat_ents_lower in Hx;
    unfold earlier; cbn [snd fst ce_order]; lia.
Qed.

(** * Round trip *)
(** Writing never fails, reading it back never fails and gives the same tailoring, whatever the line length asked for. *)
Theorem C61_round_trip :
  forall W (wcmp : W -> W -> comparison) lt (zero : W) ws isM isd dval (st : tstate (W := W)) wrap its,
    lawful wcmp lt -> sane ws isd dval ->
    (forall k v, key_at st k = Some v -> length v = 3) ->
    NoDup (map fst its) -> (forall k e, In (k, e) its -> good_item ws k e) ->
    exists text c,
      icu_text wcmp zero ws isM st wrap its = Ok text /\
      coll_parse ws isd dval [] text = (c, None) /\
      read_back zero st None its c /\ StronglySorted earlier c.
Proof.
  intros W wcmp lt zero ws isM isd dval st wrap its LW SN L3 ND G.
  destruct (write_pieces wcmp lt zero LW ws isM st L3 wrap its None (WSt [] 0 None None) G eq_refl) as (w' & ps & E1 & E2 & PF).
  { cbn. discriminate. }
  cbn [w_res app] in E2. destruct (pieces_good zero ws st None its ps PF G) as [GP EK].
  exists (tl (flat_map ptext ps)), (flat_ents 0 1 [] ps).
  unfold icu_text. rewrite E1. cbn [bind]. rewrite E2. split; [reflexivity|].
  split; [|split].
  - apply read_pieces; [exact SN|exact GP|now rewrite EK|].
    intros p ps' ->. inversion PF as [|? rs sep k e ? ? HC HS PF' Q1 Q2 Q3]; subst. cbn [fst]. destruct rs; [reflexivity|].
    destruct (HC eq_refl) as [_ (pk & pe & X & _)]. discriminate.
  - apply flat_ents_back; [exact PF|discriminate].
  - apply flat_ents_sorted.
Qed.

(** * The whole of asICU *)
Lemma isort_map {A B} (f : A -> B) lb la l : (forall x y, lb (f x) (f y) = la x y) -> isort lb (map f l) = map f (isort la l).
Proof.
  intros H. assert (I : forall x l, insert lb (f x) (map f l) = map f (insert la x l)).
  { intros x l0. induction l0 as [|y l0 IH]; [reflexivity|]. cbn [map insert]. rewrite H. destruct (la x y); [reflexivity|]. cbn [map]. now rewrite IH. }
  induction l as [|x l IH]; [reflexivity|]. cbn [map isort fold_right]. unfold isort in *. cbn. rewrite IH. apply I.
Qed.
Lemma read_back_bare {W} (zero : W) st : forall its prev c, read_back zero st prev its c ->
  read_back zero st (option_map bare_p prev) (map bare_p its) c.
Proof.
  intros its prev c. induction 1 as [prev|prev k e its base before order c HB H IH]; [constructor|].
  cbn [map]. unfold bare_p at 2. cbn [fst snd]. 
  change (CElt base (t_level e) before order (t_exp e)) with (CElt base (t_level (bare e)) before order (t_exp (bare e))).
  constructor; [|exact IH]. destruct HB as [HB|([HC1 (pk & pe & -> & HC2)] & HB2 & pe' & E)]; [left; exact HB|right].
  injection E as -> ->. split; [|split; [exact HB2|now exists (bare pe')]].
  split; [exact HC1|]. exists base, (bare pe'). split; [reflexivity|exact HC2].
Qed.

(** [asICU] with either ordering, for a tailoring without expansions: [its] are its elements in the order they are
    written (by definition, or by key). *)
Theorem C61_asICU :
  forall W (wcmp : W -> W -> comparison) lt (zero one : W) bump drop d ws isM isd dval elts fuel wrap st',
    lawful wcmp lt -> sane ws isd dval -> plain_tailoring d elts ->
    setSortKeys wcmp zero one bump drop d false fuel (TSt elts [] false) = Ok st' ->
    (forall k e, In (k, e) elts -> good_item ws k e) ->
    (exists text c,
       asICU_by_order wcmp zero one bump drop ws isM d fuel wrap (TSt elts [] false) = Ok (st', text) /\
       coll_parse ws isd dval [] text = (c, None) /\ StronglySorted earlier c /\
       read_back zero st' None (in_order elts) c) /\
    (exists text c its,
       asICU wcmp zero one bump drop ws isM d fuel wrap (TSt elts [] false) = Ok (st', text) /\
       coll_parse ws isd dval [] text = (c, None) /\ StronglySorted earlier c /\
       Permutation elts its /\ read_back zero st' None its c).
Proof.
  intros W wcmp lt zero one bump drop d ws isM isd dval elts fuel wrap st' LW SN PT H G.
  destruct (go_good wcmp zero one bump drop d elts PT false fuel st' H) as [Sh _]. unfold shape in Sh.
  destruct (set_full wcmp zero one bump drop d elts false fuel st' PT H) as [F _].
  assert (L3 : forall k v, key_at st' k = Some v -> length v = 3).
  { intros k v Hk. pose proof Hk as Hk'. unfold key_at in Hk. destruct (dget streq (ts_elts st') k) as [e|] eqn:E; [|discriminate].
    destruct (F k e E) as (v' & Hv & L). congruence. }
  assert (KE : map fst (ts_elts st') = map fst elts).
  { rewrite <- Sh, map_map. apply map_ext. intros [k e]. reflexivity. }
  assert (RT : forall its, Permutation (ts_elts st') its -> exists text c,
      icu_text wcmp zero ws isM st' wrap its = Ok text /\ coll_parse ws isd dval [] text = (c, None) /\
      StronglySorted earlier c /\ read_back zero st' None (map bare_p its) c).
  { intros its P. destruct (C61_round_trip W wcmp lt zero ws isM isd dval st' wrap its LW SN L3) as (text & c & E1 & E2 & E3 & E4).
    - apply (Permutation_NoDup (l := map fst (ts_elts st'))); [now apply Permutation_map|]. rewrite KE. apply PT.
    - intros k e Hin. apply (Permutation_in (l' := ts_elts st')) in Hin; [|now symmetry].
      assert (X : In (k, bare e) elts) by (rewrite <- Sh; apply in_map_iff; exists (k, e); auto).
      exact (G _ _ X).
    - exists text, c. repeat split; auto. exact (read_back_bare zero st' its None c E3). }
  split.
  - destruct (RT (in_order (ts_elts st')) (isort_perm _ _)) as (text & c & E1 & E2 & E3 & E4). exists text, c.
    unfold asICU_by_order. rewrite H. cbn [bind]. rewrite E1. cbn [bind]. repeat split; auto.
    rewrite <- Sh. unfold in_order. erewrite isort_map; [exact E4|]. intros [k e] [k' e']. reflexivity.
  - destruct (RT (in_key_order wcmp zero st') (isort_perm _ _)) as (text & c & E1 & E2 & E3 & E4).
    exists text, c, (map bare_p (in_key_order wcmp zero st')).
    unfold asICU. rewrite H. cbn [bind]. rewrite E1. cbn [bind]. repeat split; auto.
    rewrite <- Sh. apply Permutation_map. apply isort_perm.
Qed.

(** * When the bases are kept, so are the keys *)
Definition like (x : pystr * tel) (y : pystr * celt) : Prop :=
  fst y = fst x /\ ce_base (snd y) = t_base (snd x) /\ ce_level (snd y) = t_level (snd x) /\
  ce_before (snd y) = t_before (snd x) /\ ce_exp (snd y) = t_exp (snd x).
(** the only element that [its] could continue after is the base itself *)
Definition own_bases {W} (zero : W) (st : tstate (W := W)) (its : list (pystr * tel)) : Prop :=
  forall pre pk pe k e post, its = pre ++ (pk, pe) :: (k, e) :: post ->
    continues zero st (Some (pk, pe)) e -> t_base e = pk.
Lemma read_back_like {W} (zero : W) (st : tstate (W := W)) : forall prev its c, read_back zero st prev its c ->
  own_bases zero st (match prev with Some p => p :: its | None => its end) -> Forall2 like its c.
Proof.
  induction 1 as [prev|prev k e its base before order c HB H IH]; intros OB; [constructor|]. constructor.
  - unfold like. cbn. destruct HB as [[-> ->]|(HC & -> & pe & ->)]; [auto|]. 
    pose proof (OB [] base pe k e its eq_refl HC) as ->. destruct HC as [-> _]. auto.
  - apply IH. intros pre pk pe k0 e0 post E. destruct prev as [p|].
    + apply (OB (p :: pre) pk pe k0 e0 post). cbn. now rewrite E.
    + apply (OB pre pk pe k0 e0 post). exact E.
Qed.
Lemma filter_perm {A} (f : A -> bool) l l' : Permutation l l' -> Permutation (filter f l) (filter f l').
Proof.
  induction 1 as [|x l l' H IH|x y l|l l' l'' H1 IH1 H2 IH2]; cbn; auto.
  - destruct (f x); auto.
  - destruct (f x), (f y); auto. constructor.
  - etransitivity; eassumption.
Qed.
Definition reread (c : list (pystr * celt)) : list (pystr * tel) := map (fun p => (fst p, tel_of (snd p))) c.
Lemma order_leb_refl a : order_leb a a = true.
Proof. unfold order_leb. now rewrite (lcmp_refl _ ncmp_eq). Qed.
Lemma order_leb_anti a b : order_leb a b = true -> order_leb b a = true -> a = b.
Proof.
  unfold order_leb. intros H1 H2. apply (lcmp_eq _ ncmp_eq).
  rewrite (lcmp_antisym _ (fun x y => Nat.compare_antisym x y)) in H2.
  destruct (lcmp Nat.compare a b); cbn in *; congruence.
Qed.
Lemma order_leb_trans a b c : order_leb a b = true -> order_leb b c = true -> order_leb a c = true.
Proof.
  assert (NT : forall x y z, Nat.compare x y = Lt -> Nat.compare y z = Lt -> Nat.compare x z = Lt).
  { intros x y z. rewrite !Nat.compare_lt_iff. lia. }
  unfold order_leb. destruct (lcmp Nat.compare a b) eqn:A; [|destruct (lcmp Nat.compare b c) eqn:B|discriminate].
  - apply (lcmp_eq _ ncmp_eq) in A as ->. auto.
  - apply (lcmp_eq _ ncmp_eq) in B as ->. now rewrite A.
  - now rewrite (lcmp_trans _ ncmp_eq NT _ _ _ A B).
  - discriminate.
Qed.
Lemma earlier_leb x y : earlier x y -> order_leb (t_order (tel_of (snd x))) (t_order (tel_of (snd y))) = true /\
  order_leb (t_order (tel_of (snd y))) (t_order (tel_of (snd x))) = false.
Proof.
  unfold earlier, tel_of, order_leb. cbn [t_order lcmp]. destruct x as [? x], y as [? y]. cbn [snd].
  destruct (ce_order x) as [a b], (ce_order y) as [a' b']. cbn [fst snd]. intros [H|[-> H]].
  - rewrite (proj2 (Nat.compare_lt_iff a a') H), (proj2 (Nat.compare_gt_iff a' a) H). auto.
  - rewrite Nat.compare_refl. rewrite (proj2 (Nat.compare_lt_iff b b') H), (proj2 (Nat.compare_gt_iff b' b) H). auto.
Qed.
Lemma same_order its c : Forall2 like its c ->
  StronglySorted (fun a b => order_leb (t_order (snd a)) (t_order (snd b)) = true) its ->
  NoDup (map (fun p => t_order (snd p)) its) -> StronglySorted earlier c ->
  forall x x' y y', In (x, x') (combine its c) -> In (y, y') (combine its c) ->
    order_leb (t_order (snd x)) (t_order (snd y)) = order_leb (t_order (tel_of (snd x'))) (t_order (tel_of (snd y'))).
Proof.
  induction 1 as [|a a' its c HL HF IH]; intros S1 ND S2 x x' y y' Hx Hy; [destruct Hx|].
  inversion S1 as [|? ? S1' F1]; subst. inversion S2 as [|? ? S2' F2]; subst. inversion ND as [|? ? N1 N2]; subst.
  rewrite Forall_forall in F1, F2. cbn [combine] in Hx, Hy.
  destruct Hx as [Hx|Hx], Hy as [Hy|Hy].
  - injection Hx as <- <-. injection Hy as <- <-. now rewrite !order_leb_refl.
  - injection Hx as <- <-. pose proof (in_combine_l _ _ _ _ Hy) as Hy1. pose proof (in_combine_r _ _ _ _ Hy) as Hy2.
    rewrite (F1 _ Hy1). symmetry. now apply earlier_leb, F2.
  - injection Hy as <- <-. pose proof (in_combine_l _ _ _ _ Hx) as Hx1. pose proof (in_combine_r _ _ _ _ Hx) as Hx2.
    rewrite (proj2 (earlier_leb _ _ (F2 _ Hx2))). apply Bool.not_true_is_false. intros X.
    apply N1. apply in_map_iff. exists x. split; [|exact Hx1]. now apply order_leb_anti; [exact X|apply F1].
  - now apply IH.
Qed.

Section Transfer.
  Context {W : Type} (wcmp : W -> W -> comparison) (zero one : W) (bump drop : nat -> nat -> W -> W).
  Variable d : list (pystr * list (W * W * W)).
  (** success from the existence of all keys *)
  Lemma all_keys_succeed elts force fuel : plain_tailoring d elts ->
    (forall k, In k (map fst elts) -> exists v, tk wcmp zero bump drop d (num_befores elts) (length elts) elts k v) ->
    length elts <= fuel -> exists st', setSortKeys wcmp zero one bump drop d force fuel (TSt elts [] false) = Ok st'.
  Proof.
    intros PT TK HF. pose (nb := num_befores elts). pose (n := length elts).
    assert (ALL : forall ks st, top wcmp zero bump drop d nb n elts force st -> (forall k, In k ks -> In k (dkeys elts)) ->
      exists st', set_all wcmp zero one bump drop d nb n force fuel st ks = Ok st').
    { induction ks as [|k ks IH]; intros st T HK; cbn [set_all]; [eauto|].
      destruct (proj2 (dget_Some_iff _ streq_spec elts k) (HK k (or_introl eq_refl))) as (e0 & E0).
      destruct T as [I T]. pose proof (dget_map_bare (ts_elts st) k) as X.
      rewrite (proj1 I : map bare_p (ts_elts st) = elts), E0 in X.
      destruct (dget streq (ts_elts st) k) as [e|] eqn:He; [|discriminate]. cbn [option_map] in X. injection X as ->.
      rewrite (set_one_run wcmp zero one bump drop d nb n elts (noexp0 d elts PT) st k e);
        [|apply I|exact He|eapply allknown0; eassumption].
      destruct (TK k (HK k (or_introl eq_refl))) as (v & TKK).
      apply tk_tkd in TKK as (m & TKD).
      destruct (run_progress wcmp zero one bump drop d nb n elts (noexp0 d elts PT) (allknown0 d elts PT) force m fuel st k v I TKD) as (st1 & R).
      - apply tkd_bound in TKD; [lia|..]; [exact (noexp0 d elts PT)|exact (allknown0 d elts PT)].
      - intros Ff k' e' m' v' He' Hk' _ _. exact (T Ff k' e' He' Hk').
      - rewrite R. cbn [bind]. apply IH; [|intros k' Hk'; apply HK; now right].
        assert (SA : set_all wcmp zero one bump drop d nb n force fuel st [k] = Ok st1).
        { cbn [set_all]. rewrite (set_one_run wcmp zero one bump drop d nb n elts (noexp0 d elts PT) st k e);
            [now rewrite R|apply I|exact He|]. eapply allknown0; eassumption. }
        apply (set_all_ok wcmp zero one bump drop d nb n elts (noexp0 d elts PT) (allknown0 d elts PT)) in SA;
          [apply SA|split; assumption]. }
    unfold setSortKeys. cbn [ts_elts ts_sorted negb orb andb]. destruct (Nat.ltb 0 (length elts)); [|eauto].
    destruct (ALL (by_order elts) (TSt elts [] false)) as (st' & E).
    - apply top0; assumption.
    - intros k Hk. now apply by_order_in.
    - unfold nb, n in E. rewrite E. cbn [bind]. eauto.
  Qed.

  (** two tailorings with the same elements, bases, levels and marks, in the same order *)
  Variables elts elts' : list (pystr * tel).
  Variables nb n : nat.
  Hypothesis SAME : forall k e, dget streq elts k = Some e -> exists e', dget streq elts' k = Some e' /\
    t_base e' = t_base e /\ t_level e' = t_level e /\ t_before e' = t_before e.
  Hypothesis DOM : forall k, dget streq elts k = None -> dget streq elts' k = None.
  Hypothesis ORD : forall k1 e1 e1' k2 e2 e2', dget streq elts k1 = Some e1 -> dget streq elts' k1 = Some e1' ->
    dget streq elts k2 = Some e2 -> dget streq elts' k2 = Some e2' ->
    order_leb (t_order e1) (t_order e2) = order_leb (t_order e1') (t_order e2').
  Lemma shift_same (e e' : tel) vb : t_level e' = t_level e -> t_before e' = t_before e ->
    shift_key bump drop nb n e' vb = shift_key bump drop nb n e vb.
  Proof. intros A B. unfold shift_key. now rewrite A, B. Qed.
  Lemma tk_transfer k v : tk wcmp zero bump drop d nb n elts k v -> tk wcmp zero bump drop d nb n elts' k v.
  Proof.
    induction 1 as [k e b vb v He Hb Ho Ht IH Hs|k e vb v He Hb Hd Hs].
    - destruct (SAME k e He) as (e' & He' & B & Lv & Bf). destruct (SAME _ b Hb) as (b' & Hb' & _).
      apply tk_base with e' b' vb; rewrite ?B; auto.
      + rewrite <- (ORD (t_base e) b b' k e e'); auto.
      + rewrite (shift_same e e' vb Lv Bf). exact Hs.
    - destruct (SAME k e He) as (e' & He' & B & Lv & Bf).
      apply tk_root with e' vb; rewrite ?B; auto.
      + intros b' Hb'. destruct (dget streq elts (t_base e)) as [b|] eqn:Eb; [|rewrite (DOM _ Eb) in Hb'; discriminate].
        rewrite <- (ORD (t_base e) b b' k e e'); auto.
      + rewrite (shift_same e e' vb Lv Bf). exact Hs.
  Qed.
End Transfer.

Lemma key_is_tk {W} (wcmp : W -> W -> comparison) (zero one : W) bump drop d elts force fuel st' :
  plain_tailoring d elts -> setSortKeys wcmp zero one bump drop d force fuel (TSt elts [] false) = Ok st' ->
  forall k, In k (map fst elts) -> exists v, tk wcmp zero bump drop d (num_befores elts) (length elts) elts k v /\ key_at st' k = Some v.
Proof.
  intros PT H k Hk. destruct (go_good wcmp zero one bump drop d elts PT force fuel st' H) as [Sh G].
  apply (dget_Some_iff _ streq_spec) in Hk as (e & He).
  destruct (G k e He) as (e1 & r & v & A1 & A2 & A3 & A4 & A5 & A6 & T). exists v. split; [exact T|].
  unfold key_at. now rewrite A1, A3, A6.
Qed.

(** Written by order of definition and read back, a tailoring whose elements can only continue after their own bases
    gives every element the key it had. *)
Theorem C61_same_keys :
  forall W (wcmp : W -> W -> comparison) lt (zero one : W) bump drop d ws isM isd dval elts fuel wrap st',
    lawful wcmp lt -> sane ws isd dval -> plain_tailoring d elts ->
    setSortKeys wcmp zero one bump drop d false fuel (TSt elts [] false) = Ok st' -> length elts <= fuel ->
    (forall k e, In (k, e) elts -> good_item ws k e) ->
    NoDup (map (fun p => t_order (snd p)) elts) -> own_bases zero st' (in_order elts) ->
    exists text c st2,
      asICU_by_order wcmp zero one bump drop ws isM d fuel wrap (TSt elts [] false) = Ok (st', text) /\
      coll_parse ws isd dval [] text = (c, None) /\ Forall2 like (in_order elts) c /\
      setSortKeys wcmp zero one bump drop d false fuel (TSt (reread c) [] false) = Ok st2 /\
      forall k, key_at st2 k = key_at st' k.
Proof.
  intros W wcmp lt zero one bump drop d ws isM isd dval elts fuel wrap st' LW SN PT H HF G NDO OB.
  destruct (C61_asICU W wcmp lt zero one bump drop d ws isM isd dval elts fuel wrap st' LW SN PT H G) as [(text & c & E1 & E2 & E3 & E4) _].
  pose proof (read_back_like zero st' None _ c E4 OB) as F2.
  assert (PI : Permutation elts (in_order elts)) by apply isort_perm.
  assert (KC : map fst (reread c) = map fst (in_order elts)).
  { unfold reread. rewrite map_map. clear - F2. induction F2 as [|x y a b HL HF IH]; [reflexivity|]. cbn [map]. f_equal; [apply HL|exact IH]. }
  assert (ND1 : NoDup (map fst (in_order elts))).
  { apply (Permutation_NoDup (l := map fst elts)); [now apply Permutation_map|apply PT]. }
  assert (ND2 : NoDup (map fst (reread c))) by now rewrite KC.
  assert (LC : length (reread c) = length elts).
  { rewrite (Permutation_length PI). rewrite <- (map_length fst), KC. apply map_length. }
  assert (NB : num_befores (reread c) = num_befores elts).
  { unfold num_befores. rewrite (Permutation_length (filter_perm _ _ _ PI)). unfold reread.
    clear - F2. induction F2 as [|x y a b HL HF IH]; [reflexivity|]. cbn [map filter snd]. 
    change (t_before (tel_of (snd y))) with (ce_before (snd y)). destruct HL as (_ & _ & _ & -> & _).
    destruct (N.ltb 0 (t_before (snd x))); cbn [length]; now rewrite IH. }
  (* corresponding entries *)
  assert (CO : forall k e, dget streq elts k = Some e -> exists y, In ((k, e), y) (combine (in_order elts) c) /\ like (k, e) y /\
             dget streq (reread c) k = Some (tel_of (snd y))).
  { intros k e He. apply (dget_In _ streq_spec) in He. apply (Permutation_in (l' := in_order elts)) in He; [|exact PI].
    assert (X : exists y, In ((k, e), y) (combine (in_order elts) c) /\ like (k, e) y /\ In y c).
    { clear - F2 He. induction F2 as [|x y a b HL HF IH]; [destruct He|]. destruct He as [->|He].
      - exists y. repeat split; try apply HL; now left.
      - destruct (IH He) as (y' & A & B & C). exists y'. repeat split; try apply B; now right. }
    destruct X as (y & A & B & C). exists y. split; [exact A|]. split; [exact B|].
    apply (dget_NoDup_In _ streq_spec); [exact ND2|]. apply in_map_iff. exists y. split; [|exact C]. destruct B as [-> _]. reflexivity. }
  assert (NN : forall k, dget streq elts k = None -> dget streq (reread c) k = None).
  { intros k Hk. apply (dget_None _ streq_spec). apply (dget_None _ streq_spec) in Hk. unfold dkeys in *. rewrite KC. intros X. apply Hk.
    apply (Permutation_in (l := map fst (in_order elts))); [|exact X]. apply Permutation_map. now symmetry. }
  assert (SO : StronglySorted (fun a b => order_leb (t_order (snd a)) (t_order (snd b)) = true) (in_order elts)).
  { unfold in_order. apply (isort_sorted (fun a b : pystr * tel => order_leb (t_order (snd a)) (t_order (snd b)))).
    - intros a b. unfold order_leb. rewrite (lcmp_antisym _ (fun x y => Nat.compare_antisym x y) (t_order (snd a))).
      destruct (lcmp Nat.compare _ _); cbn; auto.
    - intros a b c0. apply order_leb_trans. }
  assert (NDO' : NoDup (map (fun p => t_order (snd p)) (in_order elts))).
  { apply (Permutation_NoDup (l := map (fun p => t_order (snd p)) elts)); [now apply Permutation_map|exact NDO]. }
  pose proof (same_order _ _ F2 SO NDO' E3) as OR.
  assert (PT2 : plain_tailoring d (reread c)).
  { split; [exact ND2|]. intros k e' Hin. apply in_map_iff in Hin as (y & Ey & Hy). injection Ey as <- <-.
    assert (X : exists x, In x (in_order elts) /\ like x y).
    { clear - F2 Hy. induction F2 as [|x z a b HL HF IH]; [destruct Hy|]. destruct Hy as [->|Hy]; [exists x; split; [now left|exact HL]|].
      destruct (IH Hy) as (x' & A & B). exists x'. split; [now right|exact B]. }
    destruct X as ([k e] & Hx & (_ & LB & _ & _ & LX)). cbn [snd] in *.
    apply (Permutation_in (l' := elts)) in Hx; [|now symmetry].
    destruct (proj2 PT k e Hx) as (A & _ & _ & B). cbn [tel_of t_exp t_short t_key t_base]. rewrite LX, LB. repeat split; auto.
    destruct B as [B|[B|B]]; auto. right. left. rewrite KC. apply (Permutation_in (l := map fst elts)); [now apply Permutation_map|exact B]. }
  assert (TR : forall k v, tk wcmp zero bump drop d (num_befores elts) (length elts) elts k v ->
               tk wcmp zero bump drop d (num_befores (reread c)) (length (reread c)) (reread c) k v).
  { intros k v T. rewrite NB, LC. revert T. apply tk_transfer.
    - intros k0 e He. destruct (CO k0 e He) as (y & _ & (_ & L1 & L2 & L3 & _) & Y). exists (tel_of (snd y)). auto.
    - exact NN.
    - intros k1 e1 e1' k2 e2 e2' H1 H1' H2 H2'.
      destruct (CO k1 e1 H1) as (y1 & I1 & _ & Y1). destruct (CO k2 e2 H2) as (y2 & I2 & _ & Y2).
      rewrite Y1 in H1'. rewrite Y2 in H2'. injection H1' as <-. injection H2' as <-. exact (OR _ _ _ _ I1 I2). }
  destruct (all_keys_succeed wcmp zero one bump drop d (reread c) false fuel PT2) as (st2 & R2).
  - intros k Hk. rewrite KC in Hk.
    assert (Hk' : In k (map fst elts)) by (apply (Permutation_in (l := map fst (in_order elts))); [apply Permutation_map; now symmetry|exact Hk]).
    destruct (key_is_tk wcmp zero one bump drop d elts false fuel st' PT H k Hk') as (v & T & _). exists v. now apply TR.
  - rewrite LC. exact HF.
  - exists text, c, st2. repeat split; auto. intros k.
    destruct (set_full wcmp zero one bump drop d elts false fuel st' PT H) as [_ D1].
    destruct (set_full wcmp zero one bump drop d (reread c) false fuel st2 PT2 R2) as [_ D2].
    destruct (in_dec (list_eq_dec N.eq_dec) k (map fst elts)) as [Hk|Hk].
    + destruct (key_is_tk wcmp zero one bump drop d elts false fuel st' PT H k Hk) as (v & T & ->).
      assert (Hk' : In k (map fst (reread c))) by (rewrite KC; apply (Permutation_in (l := map fst elts)); [now apply Permutation_map|exact Hk]).
      destruct (key_is_tk wcmp zero one bump drop d (reread c) false fuel st2 PT2 R2 k Hk') as (v2 & T2 & ->).
      f_equal. symmetry. exact (tk_det _ _ _ _ _ _ _ _ _ _ (TR k v T) _ T2).
    + destruct (key_at st' k) eqn:A; [exfalso; apply Hk, D1; congruence|].
      destruct (key_at st2 k) eqn:B; [|reflexivity]. exfalso. apply Hk.
      assert (X : In k (map fst (reread c))) by (apply D2; congruence). rewrite KC in X.
      apply (Permutation_in (l := map fst (in_order elts))); [apply Permutation_map; now symmetry|exact X].
Qed.
