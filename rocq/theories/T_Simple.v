(** C62: collations from a simple list of items. *)
From Coq Require Import QArith Qcanon Lqa Sorting.Sorted.
From Verif Require Import Py PyFacts M_UnicodeSets P_UnicodeSets M_Collation P_Collation P_Collation2 T_Collation
  M_Tailor P_Tailor T_Tailor M_TailorQ T_Tailor3 M_Simple P_Simple P_Simple2.
Open Scope nat_scope.

(** * Specification *)
(** the items of all lines with their levels, in the order they are written *)
Definition listed (ws : N -> bool) lower upper strict (values : list pystr) : list (pystr * nat) :=
  flat_map (fun v => line_levels 1 (map (slash_items ws lower upper strict) (space_items lower strict v))) values.
(** every item and the start of every line has a primary weight that is not zero *)
Definition all_primary {W} (wcmp : W -> W -> comparison) zero (d : list (pystr * list (W * W * W))) lower strict values items : Prop :=
  (forall v, In v values -> has_primary wcmp zero d (hd [] (space_items lower strict v))) /\
  (forall y, In y items -> has_primary wcmp zero d y).

Lemma line_nonempty ws lower upper strict v :
  exists s lv l, line_levels 1 (map (slash_items ws lower upper strict) (space_items lower strict v)) = (s, lv) :: l /\
    hd [] (map (slash_items ws lower upper strict) (space_items lower strict v)) <> [].
Proof.
  pose proof (space_nonempty lower strict v) as N. destruct (space_items lower strict v) as [|a r]; [congruence|].
  cbn [map line_levels hd]. pose proof (slash_nonempty ws lower upper strict a) as N2.
  destruct (slash_items ws lower upper strict a) as [|s g]; [congruence|]. cbn [group_levels app]. eauto.
Qed.

(** ** what the lines become: every item relates to the item before it, at the level its place says; the first item is
    where the chain starts *)
Theorem C62_chain :
  forall W (wcmp : W -> W -> comparison) zero ws lower upper (d : list (pystr * list (W * W * W))) strict elts values s lv l,
    (forall x y, wcmp x y = Eq <-> x = y) ->
    listed ws lower upper strict values = (s, lv) :: l ->
    NoDup (map fst elts ++ s :: map fst l) -> ~ In [] (s :: map fst l) ->
    all_primary wcmp zero d lower strict values (s :: map fst l) ->
    exists b, add_lines wcmp zero ws lower upper d strict (elts, None) values = Ok (elts ++ linked s l, Some b).
Proof.
  intros W wcmp zero ws lower upper d strict elts values s lv l WE HL ND NE [HV HX].
  destruct values as [|v values]; [discriminate|]. unfold listed in HL. cbn [flat_map] in HL. fold (listed ws lower upper strict values) in HL.
  destruct (line_nonempty ws lower upper strict v) as (s0 & lv0 & l0 & E0 & N0).
  rewrite E0 in HL. cbn [app] in HL. injection HL as -> -> <-. rename l0 into l1.
  assert (F : fresh elts ((s, lv) :: l1 ++ listed ws lower upper strict values)) by (split; [exact ND|exact NE]).
  assert (F1 : fresh elts (line_levels 1 (map (slash_items ws lower upper strict) (space_items lower strict v)))).
  { rewrite E0. change ((s, lv) :: l1 ++ listed ws lower upper strict values) with (((s, lv) :: l1) ++ listed ws lower upper strict values) in F.
    exact (proj1 (fresh_app elts s _ _ F)). }
  cbn [add_lines]. unfold add_line.
  rewrite (has_primary_spec wcmp zero WE d _ (HV v (or_introl eq_refl))). cbn [bind].
  rewrite (add_first_line ws lower upper strict (space_items lower strict v) elts 1 s lv l1 F1 E0 N0). cbn [bind].
  assert (F2 : fresh (elts ++ linked s l1) (listed ws lower upper strict values)).
  { destruct F as [A B]. cbn [map fst] in A, B. split.
    - rewrite map_app, linked_keys, <- app_assoc. rewrite map_app in A. now apply NoDup_remove_1 in A.
    - intros X. apply B. right. rewrite map_app. apply in_or_app. now right. }
  destruct (add_lines_more wcmp zero ws lower upper WE d strict values (elts ++ linked s l1) (last (map fst l1) s) F2) as (b' & E).
  - intros v' H'. apply HV. now right.
  - apply HX. assert (L : forall (m : list pystr) a, In (last m a) (a :: m)).
    { clear. induction m as [|y m IH]; intros a; [now left|]. rewrite last_cons. right. apply IH. }
    destruct (L (map fst l1) s) as [<-|X]; [now left|right]. rewrite map_app. apply in_or_app. now left.
  - intros x Hx. apply HX. right. rewrite map_app. apply in_or_app. now right.
  - exists b'. rewrite E, <- app_assoc, linked_app. reflexivity.
Qed.

Lemma listed_levels ws lower upper strict values : forall p, In p (listed ws lower upper strict values) -> 1 <= snd p <= 3.
Proof.
  assert (G : forall lv g p, 1 <= lv <= 3 -> In p (group_levels lv g) -> 1 <= snd p <= 3).
  { intros lv [|x r] p H X; [destruct X|]. destruct X as [<-|X]; [exact H|]. apply in_map_iff in X as (y & <- & _). cbn. lia. }
  intros p H. unfold listed in H. apply in_flat_map in H as (v & _ & H). unfold line_levels in H.
  destruct (map _ _) as [|g r]; [destruct H|]. apply in_app_or in H as [H|H].
  - eapply G; [|exact H]. lia.
  - apply in_flat_map in H as (g' & _ & H). eapply G; [|exact H]. lia.
Qed.

Lemma in_linked b l : forall k e, In (k, e) (linked b l) ->
  t_order e = [0] /\ t_exp e = [] /\ t_short e = None /\ t_key e = None /\ t_before e = 0%N /\ (t_base e = b \/ In (t_base e) (map fst l)).
Proof.
  revert b. induction l as [|[s lv] l IH]; intros b k e H; [destruct H|]. cbn [linked] in H. destruct H as [E|H].
  - injection E as <- <-. cbn. auto 8.
  - destruct (IH s k e H) as (A & B & C & D & F & [G|G]); repeat split; auto; cbn [map fst]; right; [left|right]; auto.
Qed.
Lemma linked_plain {W} (d : list (pystr * list (W * W * W))) b l : In b (map fst d) -> NoDup (map fst l) -> plain_tailoring d (linked b l).
Proof.
  intros Hb ND. split; [now rewrite linked_keys|]. intros k e H. destruct (in_linked b l k e H) as (A & B & C & D & F & G).
  repeat split; auto. rewrite linked_keys. destruct G as [->|G]; auto.
Qed.
Lemma linked_befores b l : num_befores (linked b l) = 0.
Proof.
  unfold num_befores. revert b. induction l as [|[s lv] l IH]; intros b; [reflexivity|]. cbn [linked filter snd t_before N.ltb N.compare]. apply IH.
Qed.
Lemma Forall2_in_l {A B} (R : A -> B -> Prop) l m x : Forall2 R l m -> In x l -> exists y, In y m /\ R x y.
Proof. induction 1 as [|a b l m H _ IH]; intros X; [destruct X|]. destruct X as [->|X]; [exists b; split; [now left|exact H]|]. destruct (IH X) as (y & H1 & H2). exists y. split; [now right|exact H2]. Qed.

(** The keys of the items of such a chain come in the order of the list, and each first differs from the one before it at
    its level. *)
Theorem C62_order :
  forall W (wcmp : W -> W -> comparison) (lt : W -> W -> Prop) (zero one : W) bump drop d fuel b l vb,
    lawful wcmp lt -> (forall x y w, lt w (bump x y w)) ->
    NoDup (b :: map fst l) -> In b (map fst d) -> (forall p, In p l -> 1 <= snd p <= 3) ->
    dkey wcmp zero d b = Ok vb -> (forall j, j < 3 -> nth j vb [] <> [] /\ ~ lt (last (nth j vb []) zero) zero) ->
    length l <= fuel ->
    exists st' vs, setSortKeys wcmp zero one bump drop d false fuel (TSt (linked b l) [] false) = Ok st' /\
      Forall2 (fun x v => key_at st' x = Some v) (map fst l) vs /\
      StronglySorted (fun v v' => sk_lt wcmp zero v (Some v') = Ok true) (vb :: vs) /\
      Forall2 (fun p q => diffLevel wcmp zero (Some (fst q)) (Some (snd q)) = Ok (Z.of_nat (snd p))) l (combine (vb :: vs) vs).
Proof.
  intros W wcmp lt zero one bump drop d fuel b l vb LW UP ND Hb LV DK SV HF.
  inversion ND as [|? ? NB ND1]; subst.
  pose proof (linked_plain d b l Hb ND1) as PT.
  assert (SO : sound zero lt vb) by (split; [eapply dkey_len; eassumption|exact SV]).
  destruct (@exists_last _ (nth 0 vb []) (proj1 (SV 0 ltac:(lia)))) as (pre & w & EP).
  destruct (chain_keys wcmp zero one bump drop d (linked b l) PT lt LW UP (fun k e H => proj1 (in_linked b l k e H)) pre w l b vb 0)
    as (vs & F2 & SS & FD & _); auto.
  { right. split; [|exact DK]. apply (dget_None _ streq_spec). unfold dkeys. now rewrite linked_keys. }
  destruct (set_keys wcmp zero one bump drop d (linked b l) PT false fuel (TSt (linked b l) [] false)) as (st' & E & Sh & K).
  - unfold shape. cbn [ts_elts]. apply (elts0_eq wcmp zero d _ PT).
  - now right.
  - intros k Hk. rewrite linked_keys in Hk. destruct (Forall2_in_l _ _ _ _ F2 Hk) as (v & _ & T). eauto.
  - rewrite <- (map_length fst (linked b l)), linked_keys, map_length. exact HF.
  - exists st', vs. split; [exact E|]. split; [|split; [|exact FD]].
    + clear - F2 K. induction F2; constructor; auto.
    + apply (Sorted_StronglySorted (R := follows wcmp zero lt)) in SS; [|intros x y z; apply (follows_trans wcmp zero lt LW)].
      clear - SS. induction SS as [|x m H IH HF]; constructor; [exact IH|]. eapply Forall_impl; [|exact HF]. intros y (_ & _ & X). exact X.
Qed.

(** * The whole conversion, with exact rational weights *)
(** what difflib says of its first operation: it starts at the start, and when it inserts something before another
    element, that one is in both lists, so in the table *)
Definition difflib_ok {W} (d : list (pystr * list (W * W * W))) (first_op : list pystr -> option (nat * nat)) : Prop :=
  forall out j1 j2, first_op out = Some (j1, j2) ->
    j1 = 0 /\ 0 < j2 /\ forall x, nth_error out j2 = Some x -> In x (map fst d).
(** the key an item ends up with: its tailored key, or that of the table if it is not tailored *)
Definition item_key {W} (wcmp : W -> W -> comparison) zero d (st : tstate (W := W)) (x : pystr) (v : list (list W)) : Prop :=
  key_at st x = Some v \/ (key_at st x = None /\ dkey wcmp zero d x = Ok v).

Lemma ddel_mid {V} (a : list (pystr * V)) k v b : ~ In k (map fst a) -> ddel streq (a ++ (k, v) :: b) k = a ++ b.
Proof.
  induction a as [|[k' x] a IH]; intros H; cbn [app ddel].
  - destruct (streq_spec k k); [reflexivity|congruence].
  - destruct (streq_spec k k') as [->|N]; [exfalso; apply H; now left|]. rewrite IH; [reflexivity|]. intros X. apply H. now right.
Qed.
Lemma bare_ddel (a : list (pystr * tel)) k : map bare_p (ddel streq a k) = ddel streq (map bare_p a) k.
Proof.
  induction a as [|[k' x] a IH]; [reflexivity|]. cbn [ddel map bare_p fst snd]. destruct (streq k k'); [reflexivity|]. cbn [map]. now rewrite IH.
Qed.
Lemma Sorted_app {A} (R : A -> A -> Prop) x l : forall a, Sorted R (a :: l) -> forall r, Sorted R (x :: r) ->
  R (last l a) x -> Sorted R (a :: l ++ x :: r).
Proof.
  induction l as [|y l IH]; intros a H r H' HR; cbn [app].
  - constructor; [exact H'|]. constructor. exact HR.
  - inversion H as [|? ? H1 H2]; subst. inversion H2; subst. constructor; [|constructor; assumption].
    apply IH; auto. rewrite last_cons in HR. exact HR.
Qed.

Lemma iter_bump nb n a w : Nat.iter a (bumpQ nb n) w = (w + offset nb n a 0)%Qc.
Proof.
  induction a as [|a IH].
  - rewrite offset_0, Qcplus_0_r. reflexivity.
  - change (Nat.iter (S a) (bumpQ nb n) w) with (bumpQ nb n (Nat.iter a (bumpQ nb n) w)). rewrite IH. apply offset_bump.
Qed.
Lemma bump_up nb n w : (w < bumpQ nb n w)%Qc.
Proof.
  unfold bumpQ, Qclt, inc. rewrite this_plus, this_inv. assert (0 < 1 # Pos.of_nat (10 ^ ndigits ((nb + 1) * n)))%Q by reflexivity. lra.
Qed.
Lemma below nb n a w : a <= n -> (Nat.iter a (bumpQ nb n) (dropQ nb n w) < w)%Qc.
Proof.
  intros H. rewrite iter_bump. unfold dropQ. unfold Qclt. rewrite this_plus, this_minus, this_offset. unfold beforeshift. rewrite this_inv.
  pose proof (part_up nb n a H) as P.
  assert (Z : ((Z.of_nat 0 # 1) * (1 # Pos.of_nat (nb + 1)) == 0)%Q) by reflexivity. rewrite Z. lra.
Qed.
Lemma drop_pos nb n w : whole w -> w <> Q2Qc 0 -> nb <> 0 -> (Q2Qc 0 < dropQ nb n w)%Qc.
Proof.
  intros (m & ->) N NB. assert (0 < m) by (destruct m; [exfalso; apply N; reflexivity|lia]).
  unfold dropQ, Qclt, beforeshift. rewrite this_minus, this_nat, this_inv. change (this (Q2Qc 0)) with 0%Q.
  assert (1 <= Z.of_nat m # 1)%Q by (unfold Qle; cbn; lia).
  assert (1 # Pos.of_nat (nb + 1) < 1)%Q; [|lra]. unfold Qlt. cbn [Qnum Qden]. rewrite Pos_of_nat_Z by lia. lia.
Qed.

Notation "0q" := (Q2Qc 0).
Lemma prim_lt v v' p w w' : length v = 3 -> length v' = 3 -> nth 0 v [] = p ++ [w] -> nth 0 v' [] = p ++ [w'] ->
  (w < w')%Qc -> w' <> 0q -> sk_lt Qccompare 0q v (Some v') = Ok true.
Proof.
  intros L1 L2 E1 E2 H N. pose proof (change_lt Qccompare Qclt 0q Qc_lawful p w w' H N) as C.
  apply len3 in L1 as (a & b & c & ->). apply len3 in L2 as (x & y & z & ->). cbn [nth] in *. subst a x.
  unfold sk_lt, sk_cmp, diffLevel. cbn [diff_from level nth_error bind].
  assert (C' : lcmp Qccompare (szQ (p ++ [w'])) (szQ (p ++ [w])) = Gt).
  { rewrite (lcmp_antisym Qccompare (law_antisym _ _ Qc_lawful) (szQ (p ++ [w]))), C. reflexivity. }
  rewrite C'. reflexivity.
Qed.

Lemma key_None_shape {W} elts (st : tstate (W := W)) x : shape elts st -> ~ In x (map fst elts) -> key_at st x = None.
Proof.
  intros Sh N. unfold key_at. pose proof (dget_map_bare (ts_elts st) x) as G. rewrite (Sh : map bare_p (ts_elts st) = elts) in G.
  rewrite (proj2 (dget_None _ streq_spec elts x) N) in G. destruct (dget streq (ts_elts st) x); [discriminate|reflexivity].
Qed.
Lemma Forall2_key {W} wcmp zero d (st : tstate (W := W)) (T : pystr -> list (list W) -> Prop) xs vs :
  (forall k v, T k v -> key_at st k = Some v) -> Forall2 T xs vs -> Forall2 (item_key wcmp zero d st) xs vs.
Proof. intros K. induction 1; constructor; [left; auto|assumption]. Qed.
Lemma strong {W} wcmp zero lt vs : lawful wcmp lt -> Sorted (follows (W := W) wcmp zero lt) vs ->
  StronglySorted (fun v v' => sk_lt wcmp zero v (Some v') = Ok true) vs.
Proof.
  intros LW SS. apply (Sorted_StronglySorted (R := follows wcmp zero lt)) in SS; [|intros x y z; apply (follows_trans wcmp zero lt LW)].
  induction SS as [|x m H IH HF]; constructor; [exact IH|]. eapply Forall_impl; [|exact HF]. intros y (_ & _ & X). exact X.
Qed.

Section Final.
  Variable d : list (pystr * list (Qc * Qc * Qc)).
  (** the keys of the table *)
  Definition whole_key (x : pystr) : Prop :=
    exists v, dkey Qccompare 0q d x = Ok v /\ (forall j, j < 3 -> nth j v [] <> []) /\
      (forall j y, In y (nth j v []) -> whole y) /\ last (nth 0 v []) 0q <> 0q.
  Lemma whole_sound x v : dkey Qccompare 0q d x = Ok v -> (forall j, j < 3 -> nth j v [] <> []) ->
    (forall j y, In y (nth j v []) -> whole y) -> sound 0q Qclt v.
  Proof.
    intros E N H. split; [eapply dkey_len; eassumption|]. intros j Hj. split; [now apply N|].
    destruct (exists_last (N j Hj)) as (p & y & Ey). rewrite Ey, last_last.
    assert (Hy : whole y) by (apply (H j); rewrite Ey; apply in_or_app; right; now left).
    apply Qcle_not_lt. now apply whole_nonneg.
  Qed.

  Notation SK := (setSortKeys Qccompare 0q (Q2Qc 1) bumpQ dropQ d).
  Lemma by_key_sorted st xs vs : map fst (ts_elts st) = xs -> Forall2 (fun x v => key_at st x = Some v) xs vs ->
    StronglySorted (fun v v' => sk_lt Qccompare 0q v (Some v') = Ok true) vs -> Forall (fun v => length v = 3) vs ->
    by_key Qccompare 0q st = xs.
  Proof.
    intros E F S L. unfold by_key. rewrite E. apply isort_id. clear E. revert vs F S L.
    induction xs as [|x xs IH]; intros vs F S L; [constructor|]. inversion F as [|? v ? vs' Hx F']; subst.
    inversion S as [|? ? S' HF]; subst. inversion L as [|? ? Lv L']; subst. constructor; [now apply (IH vs')|].
    apply Forall_forall. intros y Hy. destruct (Forall2_in_l _ _ _ _ F' Hy) as (v' & Hv' & Ky). rewrite Hx, Ky.
    rewrite Forall_forall in HF, L'. pose proof (HF v' Hv') as A. pose proof (L' v' Hv') as L2.
    destruct (sk_lt Qccompare 0q v' (Some v)) as [[|]|] eqn:B; try reflexivity.
    destruct (C06_strict_weak_order _ _ _ 0q Qc_lawful) as (IR & T & _).
    pose proof (T v v' v Lv L2 Lv A B) as X. rewrite IR in X by exact Lv. discriminate.
  Qed.

  Lemma convert_chain b l first_op fuel :
    NoDup (b :: map fst l) -> In b (map fst d) -> (forall p, In p l -> 1 <= snd p <= 3) ->
    (forall x, In x (b :: map fst l) -> In x (map fst d) -> whole_key x) ->
    difflib_ok d first_op -> length l <= fuel ->
    exists st1 st2 st3 vs, SK false fuel (TSt (linked b l) [] false) = Ok st1 /\
      insert_before Qccompare 0q first_op st1 = Ok st2 /\ SK true fuel st2 = Ok st3 /\
      Forall2 (item_key Qccompare 0q d st3) (b :: map fst l) vs /\
      StronglySorted (fun v v' => sk_lt Qccompare 0q v (Some v') = Ok true) vs.
  Proof.
    intros ND Hb LV WK DO HF. inversion ND as [|? ? NB ND1]; subst.
    destruct (WK b (or_introl eq_refl) Hb) as (vb & DK & NE & WH & _).
    pose proof (linked_plain d b l Hb ND1) as PT. set (elts := linked b l) in *.
    pose proof (whole_sound b vb DK NE WH) as SO.
    destruct (@exists_last _ (nth 0 vb []) (NE 0 ltac:(lia))) as (pre & w & EP).
    assert (NG : dget streq elts b = None).
    { apply (dget_None _ streq_spec). unfold dkeys, elts. now rewrite linked_keys. }
    destruct (chain_keys Qccompare 0q (Q2Qc 1) bumpQ dropQ d elts PT Qclt Qc_lawful bump_up (fun k e H => proj1 (in_linked b l k e H)) pre w l b vb 0)
      as (vs & F2 & SS & _ & _); auto.
    { right. auto. }
    assert (LE : length elts <= fuel).
    { unfold elts. rewrite <- (map_length fst (linked b l)), linked_keys, map_length. exact HF. }
    assert (AK : forall k, In k (map fst elts) -> exists v, tk Qccompare 0q bumpQ dropQ d (num_befores elts) (length elts) elts k v).
    { intros k Hk. unfold elts in Hk. rewrite linked_keys in Hk. destruct (Forall2_in_l _ _ _ _ F2 Hk) as (v & _ & T). eauto. }
    destruct (set_keys Qccompare 0q (Q2Qc 1) bumpQ dropQ d elts PT false fuel (TSt elts [] false)) as (st1 & E1 & Sh1 & K1); auto.
    { unfold shape. cbn [ts_elts]. apply (elts0_eq Qccompare 0q d _ PT). }
    exists st1.
    assert (BK : by_key Qccompare 0q st1 = map fst l).
    { apply by_key_sorted with vs.
      - transitivity (map fst elts); [|apply linked_keys]. rewrite <- Sh1, map_map. now apply map_ext; intros [k e].
      - clear - F2 K1. induction F2; constructor; auto.
      - apply (strong Qccompare 0q Qclt) in SS; [|apply Qc_lawful]. now inversion SS.
      - clear - F2 PT. apply Forall_forall. intros v Hv. apply In_nth_error in Hv as (i & Hi).
        induction F2 as [|x y xs ys H _ IH] in i, Hi |- *; [now destruct i|]. destruct i as [|i]; [|now apply (IH i)].
        injection Hi as ->. eapply tk_len; exact H. }
    (** nothing to insert *)
    assert (SAME : forall st2, insert_before Qccompare 0q first_op st1 = Ok st1 -> st2 = st1 ->
      exists st2 st3 vs, SK false fuel (TSt elts [] false) = Ok st1 /\
      insert_before Qccompare 0q first_op st1 = Ok st2 /\ SK true fuel st2 = Ok st3 /\
      Forall2 (item_key Qccompare 0q d st3) (b :: map fst l) vs /\
      StronglySorted (fun v v' => sk_lt Qccompare 0q v (Some v') = Ok true) vs).
    { intros _ EI _. exists st1.
      destruct (set_keys Qccompare 0q (Q2Qc 1) bumpQ dropQ d elts PT true fuel st1) as (st3 & E3 & Sh3 & K3); auto.
      exists st3, (vb :: vs). split; [exact E1|]. split; [exact EI|]. split; [exact E3|]. split.
      - constructor.
        + right. split; [|exact DK]. apply (key_None_shape elts); [exact Sh3|]. unfold elts. now rewrite linked_keys.
        + eapply Forall2_key; [exact K3|exact F2].
      - eapply strong; [apply Qc_lawful|exact SS]. }
    destruct (first_op (map fst l)) as [[j1 j2]|] eqn:FO.
    2:{ apply (SAME st1); [|reflexivity]. unfold insert_before. now rewrite BK, FO. }
    destruct (nth_error (map fst l) j2) as [nbs|] eqn:EN.
    2:{ apply (SAME st1); [|reflexivity]. unfold insert_before. now rewrite BK, FO, EN. }
    clear SAME. destruct (DO _ _ _ FO) as (-> & Hj & HD). specialize (HD _ EN).
    apply nth_error_split in EN as (k1 & k2 & EL & LK).
    apply map_eq_app in EL as (l1 & l2' & -> & <- & EL). destruct l2' as [|[nb0 lvn] l2]; [discriminate|].
    cbn [map fst] in EL. injection EL as -> <-. rewrite map_length in LK. destruct l1 as [|[k lvk] l1']; [cbn in LK; lia|].
    set (l1 := (k, lvk) :: l1') in *.
    (** the new elements *)
    set (e := TEl nbs 1 1%N [0] [] None None).
    set (elts2 := linked b l1 ++ linked nbs l2 ++ [(b, e)]).
    assert (EE : elts = linked b l1 ++ (nbs, TEl (last (map fst l1) b) lvn 0%N [0] [] None None) :: linked nbs l2).
    { unfold elts. rewrite linked_app. reflexivity. }
    rewrite map_app in ND1, NB, ND. cbn [map fst] in ND1, NB, ND.
    assert (NIN : ~ In nbs (map fst l1)).
    { intros X. apply NoDup_remove_2 in ND1. apply ND1. apply in_or_app. now left. }
    assert (NN2 : ~ In nbs (map fst l2)).
    { intros X. apply NoDup_remove_2 in ND1. apply ND1. apply in_or_app. now right. }
    assert (NBN : nbs <> b).
    { intros ->. apply NB. apply in_or_app. right. now left. }
    assert (NB1 : ~ In b (map fst l1)) by (intros X; apply NB; apply in_or_app; now left).
    assert (NB2 : ~ In b (map fst l2)) by (intros X; apply NB; apply in_or_app; right; now right).
    assert (NDX : NoDup (map fst l1 ++ map fst l2)) by (now apply NoDup_remove_1 in ND1).
    assert (ND2 : NoDup (map fst elts2)).
    { unfold elts2. rewrite !map_app, !linked_keys. cbn [map fst]. rewrite app_assoc.
      apply (Permutation_NoDup (l := b :: map fst l1 ++ map fst l2)); [apply Permutation_cons_append|].
      constructor; [|exact NDX]. intros X. apply in_app_or in X as [X|X]; contradiction. }
    assert (SH2 : exists st2, insert_before Qccompare 0q first_op st1 = Ok st2 /\ shape elts2 st2).
    { unfold insert_before. rewrite BK, FO. rewrite map_app. cbn [map fst].
      rewrite nth_error_app2 by (rewrite map_length; lia). rewrite map_length, LK, Nat.sub_diag. cbn [nth_error].
      unfold l1 at 1. cbn [map fst app nth_error].
      assert (GK : dget streq elts k = Some (TEl b lvk 0%N [0] [] None None)).
      { apply (get_in d elts PT). rewrite EE. unfold l1. cbn [linked app]. now left. }
      pose proof (dget_map_bare (ts_elts st1) k) as G. rewrite (Sh1 : map bare_p (ts_elts st1) = elts), GK in G. destruct (dget streq (ts_elts st1) k) as [ek|]; [|discriminate].
      cbn [option_map] in G. injection G as G _ _ _ _. rewrite <- G.
      pose proof (dget_map_bare (ts_elts st1) b) as GB. rewrite (Sh1 : map bare_p (ts_elts st1) = elts), NG in GB. destruct (dget streq (ts_elts st1) b) eqn:GB'; [discriminate|].
      eexists. split; [reflexivity|]. unfold shape, with_elts. cbn [ts_elts]. rewrite bare_ddel.
      rewrite dset_fresh by (now apply (dget_None _ streq_spec)). rewrite map_app. rewrite (Sh1 : map bare_p (ts_elts st1) = elts), EE.
      cbn [map bare_p fst snd]. rewrite <- app_assoc. cbn [app]. rewrite ddel_mid by (now rewrite linked_keys). reflexivity. }
    destruct SH2 as (st2 & E2 & Sh2).
    assert (FL2 : forall k0 e0, In (k0, e0) elts2 -> t_order e0 = [0]).
    { intros k0 e0 H. unfold elts2 in H. apply in_app_or in H as [H|H]; [exact (proj1 (in_linked _ _ _ _ H))|].
      apply in_app_or in H as [H|H]; [exact (proj1 (in_linked _ _ _ _ H))|]. destruct H as [H|[]]. injection H as <- <-. reflexivity. }
    assert (PT2 : plain_tailoring d elts2).
    { split; [exact ND2|]. intros k0 e0 H. unfold elts2 in *. rewrite !map_app, !linked_keys. cbn [map fst].
      apply in_app_or in H as [H|H]; [|apply in_app_or in H as [H|H]].
      - destruct (in_linked _ _ _ _ H) as (A & B & C & D & F & [->|G]); repeat split; auto. right. left. apply in_or_app. now left.
      - destruct (in_linked _ _ _ _ H) as (A & B & C & D & F & [->|G]); repeat split; auto. right. left. rewrite !in_app_iff. auto.
      - destruct H as [H|[]]. injection H as <- <-. repeat split; auto. }
    assert (NBE : num_befores elts2 = 1).
    { unfold elts2, num_befores. rewrite !filter_app, !app_length.
      pose proof (linked_befores b l1) as A. pose proof (linked_befores nbs l2) as B. unfold num_befores in A, B. rewrite A, B. reflexivity. }
    set (n2 := length elts2).
    (** the key of the new base, and of the start *)
    assert (HIN : In nbs (b :: map fst (l1 ++ (nbs, lvn) :: l2))).
    { right. rewrite map_app. apply in_or_app. right. now left. }
    destruct (WK nbs HIN HD) as (vn & DKn & NEn & WHn & NZ).
    pose proof (whole_sound nbs vn DKn NEn WHn) as SOn. pose proof (proj1 SOn) as L3n.
    destruct (@exists_last _ (nth 0 vn []) (NEn 0 ltac:(lia))) as (pn & wn & EPn). rewrite EPn, last_last in NZ.
    assert (WN : whole wn) by (apply (WHn 0); rewrite EPn; apply in_or_app; right; now left).
    assert (GN : dget streq elts2 nbs = None).
    { apply (dget_None _ streq_spec). unfold dkeys, elts2. rewrite !map_app, !linked_keys. cbn [map fst].
      rewrite !in_app_iff. intros [X|[X|[X|[]]]]; congruence. }
    assert (SHF : exists vx, shift_key bumpQ dropQ (num_befores elts2) n2 e vn = Ok vx).
    { unfold shift_key. cbn [e t_level t_before Nat.ltb Nat.leb]. cbv zeta. unfold level. rewrite (nth_error_nth' vn []) by lia. cbn [bind].
      cbn [N.eqb N.of_nat Pos.of_succ_nat Pos.eqb orb negb].
      rewrite EPn. rewrite (proj2 (upd_last_spec _ _ (pn ++ [dropQ (num_befores elts2) n2 wn]))); eauto. }
    destruct SHF as (vx & HSx).
    destruct (shift_spec bumpQ dropQ _ _ e vn vx L3n HSx) as [[X _]|[_ LC]]; [cbn in X; lia|].
    cbn [e t_level t_before N.eqb N.of_nat Pos.of_succ_nat Pos.eqb] in LC. destruct LC as (_ & Lx & HOx & p' & w' & EQ1 & EQ2).
    rewrite EPn in EQ1. apply app_inj_tail in EQ1 as [<- <-].
    assert (Tx : tk Qccompare 0q bumpQ dropQ d (num_befores elts2) n2 elts2 b vx).
    { eapply tk_root with (e := e); [|intros bb Hbb; cbn [e t_base] in Hbb; congruence|exact DKn|exact HSx].
      apply (get_in d elts2 PT2). unfold elts2. rewrite !in_app_iff. right. right. now left. }
    assert (SOx : sound 0q Qclt vx).
    { split; [exact Lx|]. intros j Hj3. destruct j as [|j].
      - rewrite EQ2, last_last. split; [now destruct pn|]. intros X.
        apply (Qclt_not_le _ _ X). apply Qclt_le_weak. apply drop_pos; auto. rewrite NBE. discriminate.
      - rewrite HOx by discriminate. now apply SOn. }
    destruct (chain_keys Qccompare 0q (Q2Qc 1) bumpQ dropQ d elts2 PT2 Qclt Qc_lawful bump_up FL2 pn (dropQ (num_befores elts2) n2 wn) l1 b vx 0)
      as (vs1 & F1 & S1 & _ & P1).
    { intros p Hp. unfold elts2. apply in_or_app. now left. }
    { intros p Hp. apply LV. apply in_or_app. now left. }
    { left. exact Tx. }
    { exact SOx. }
    { exact EQ2. }
    destruct (chain_keys Qccompare 0q (Q2Qc 1) bumpQ dropQ d elts2 PT2 Qclt Qc_lawful bump_up FL2 pn wn l2 nbs vn 0)
      as (vs2 & F3 & S2 & _ & _).
    { intros p Hp. unfold elts2. rewrite !in_app_iff. auto. }
    { intros p Hp. apply LV. apply in_or_app. right. now right. }
    { right. auto. }
    { exact SOn. }
    { exact EPn. }
    assert (LEN2 : length elts2 = length l1 + (length l2 + 1)).
    { unfold elts2. rewrite !app_length. rewrite <- (map_length fst (linked b l1)), <- (map_length fst (linked nbs l2)), !linked_keys, !map_length. reflexivity. }
    destruct (set_keys Qccompare 0q (Q2Qc 1) bumpQ dropQ d elts2 PT2 true fuel st2) as (st3 & E3 & Sh3 & K3); auto.
    { intros k0 Hk0. unfold elts2 in Hk0. rewrite !map_app, !linked_keys in Hk0. cbn [map fst] in Hk0. rewrite !in_app_iff in Hk0.
      destruct Hk0 as [X|[X|[<-|[]]]].
      - destruct (Forall2_in_l _ _ _ _ F1 X) as (v & _ & T). eauto.
      - destruct (Forall2_in_l _ _ _ _ F3 X) as (v & _ & T). eauto.
      - exists vx. exact Tx. }
    { rewrite LEN2. rewrite app_length in HF. cbn [length] in HF. lia. }
    exists st2, st3, (vx :: vs1 ++ vn :: vs2). split; [exact E1|]. split; [exact E2|]. split; [exact E3|]. split.
    - constructor; [left; now apply K3|]. rewrite map_app. apply Forall2_app; [eapply Forall2_key; [exact K3|exact F1]|].
      cbn [map fst]. constructor; [|eapply Forall2_key; [exact K3|exact F3]].
      right. split; [|exact DKn]. apply (key_None_shape elts2); [exact Sh3|]. now apply (dget_None _ streq_spec).
    - apply (strong Qccompare 0q Qclt); [apply Qc_lawful|]. apply Sorted_app; [exact S1|exact S2|].
      assert (PL : exists a, a <= n2 /\ nth 0 (last vs1 vx) [] = pn ++ [Nat.iter a (bumpQ (num_befores elts2) n2) (dropQ (num_befores elts2) n2 wn)]).
      { assert (LL : forall (m : list (list (list Qc))) a, In (last m a) (a :: m)).
        { clear. induction m as [|y m IH]; intros a; [now left|]. rewrite last_cons. right. apply IH. }
        destruct (LL vs1 vx) as [<-|X].
        - exists 0. split; [lia|]. exact EQ2.
        - rewrite Forall_forall in P1. destruct (P1 _ X) as (a & Ha & Ea). exists a. split; [unfold n2; lia|exact Ea]. }
      destruct PL as (a & Ha & Ea).
      assert (SL : sound 0q Qclt (last vs1 vx)).
      { clear - S1 SOx. revert SOx S1. generalize vx. induction vs1 as [|y m IH]; intros v SO S1; [exact SO|]. rewrite last_cons.
        inversion S1 as [|? ? S1' H]; subst. inversion H as [|? ? HR]; subst. apply IH; [apply HR|exact S1']. }
      split; [exact SL|]. split; [exact SOn|].
      eapply (prim_lt _ _ pn _ wn); [apply SL|exact L3n|exact Ea|exact EPn| |exact NZ]. now apply below.
  Qed.
End Final.

(** The items of a list of lines sort in the order they are listed, whatever moves the comparison with the order of the
    table suggests. *)
Theorem C62_convert :
  forall ws lower upper d strict first_op fuel values items,
    items = map fst (listed ws lower upper strict values) ->
    NoDup items -> ~ In [] items ->
    all_primary Qccompare (Q2Qc 0) (ducetQ d) lower strict values items ->
    In (hd [] items) (map fst d) ->
    (forall x, In x items -> In x (map fst d) -> exists v, dkey Qccompare (Q2Qc 0) (ducetQ d) x = Ok v /\
       (forall j, j < 3 -> nth j v [] <> []) /\ last (nth 0 v []) (Q2Qc 0) <> Q2Qc 0) ->
    difflib_ok (ducetQ d) first_op -> length items <= fuel ->
    exists st vs, convertSimple Qccompare (Q2Qc 0) (Q2Qc 1) bumpQ dropQ ws lower upper (ducetQ d) first_op fuel strict [] values = Ok st /\
      Forall2 (item_key Qccompare (Q2Qc 0) (ducetQ d) st) items vs /\
      StronglySorted (fun v v' => sk_lt Qccompare (Q2Qc 0) v (Some v') = Ok true) vs.
Proof.
  intros ws lower upper d strict first_op fuel values items -> ND NE AP HD WK DO HF.
  assert (KD : map fst (ducetQ d) = map fst d) by (unfold ducetQ; rewrite map_map; reflexivity).
  destruct (listed ws lower upper strict values) as [|[s lv] l] eqn:EL.
  - destruct values as [|v values].
    2:{ unfold listed in EL. cbn [flat_map] in EL. destruct (line_nonempty ws lower upper strict v) as (s & lv & l & E & _). rewrite E in EL. discriminate. }
    exists (TSt [] [] false), []. split; [|split; constructor].
    assert (SK0 : forall f, setSortKeys Qccompare (Q2Qc 0) (Q2Qc 1) bumpQ dropQ (ducetQ d) f fuel (TSt [] [] false) = Ok (TSt [] [] false)).
    { intros f. unfold setSortKeys. cbn [ts_elts length Nat.ltb Nat.leb]. now rewrite andb_false_r. }
    assert (IB : insert_before Qccompare (Q2Qc 0) first_op (TSt [] [] false) = Ok (TSt [] [] false)).
    { unfold insert_before, by_key. cbn [ts_elts map isort]. destruct (first_op []) as [[j1 j2]|]; [|reflexivity]. now destruct j2. }
    unfold convertSimple. cbn [add_lines bind fst]. rewrite SK0. cbn [bind]. rewrite IB. cbn [bind]. apply SK0.
  - cbn [map fst hd] in *.
    assert (LV : forall p, In p l -> 1 <= snd p <= 3).
    { intros p Hp. apply (listed_levels ws lower upper strict values). rewrite EL. now right. }
    destruct (C62_chain Qc Qccompare (Q2Qc 0) ws lower upper (ducetQ d) strict [] values s lv l (law_eq _ _ Qc_lawful) EL ND NE AP) as (b & E).
    destruct (convert_chain (ducetQ d) s l first_op fuel ND) as (st1 & st2 & st3 & vs & E1 & E2 & E3 & F & SS); auto.
    { now rewrite KD. }
    { intros x Hx Hd. rewrite KD in Hd. destruct (WK x Hx Hd) as (v & A & B & C). exists v. repeat split; auto.
      intros j y. eapply whole_dkey. exact A. }
    { cbn [length] in HF. rewrite map_length in HF. lia. }
    exists st3, vs. split; [|split; assumption].
    unfold convertSimple. rewrite E. cbn [bind fst app]. rewrite E1. cbn [bind]. rewrite E2. cbn [bind]. exact E3.
Qed.
