(** C60: the calculation of tailored sort keys ends. *)
From Verif Require Import Py PyFacts M_UnicodeSets P_UnicodeSets M_Collation P_Collation P_Collation2 T_Collation
  M_Tailor P_Tailor T_Tailor.

Definition stuck {A} (r : res A) : Prop := r = Raise OutOfFuel.
Lemma bind_stuck {A B} (r : res A) (f : A -> res B) :
  ~ stuck r -> (forall a, r = Ok a -> ~ stuck (f a)) -> ~ stuck (bind r f).
Proof. destruct r as [a|e]; cbn; intros H1 H2; [now apply H2|]. unfold stuck in *. intros X. apply H1. injection X as ->. reflexivity. Qed.

Section Ends.
  Context {W : Type} (wcmp : W -> W -> comparison) (zero one : W) (bump drop : nat -> nat -> W -> W).
  Variable d : list (pystr * list (W * W * W)).
  Variables nb n : nat.
  Notation tst := (tstate (W := W)).
  Notation run := (sortkey wcmp zero one bump drop d nb n).

  Definition unkeyed (l : list (pystr * tel)) : nat :=
    length (filter (fun p => match t_key (snd p) with None => true | Some _ => false end) l).
  Lemma unkeyed_le l : (unkeyed l <= length l)%nat.
  Proof. unfold unkeyed. induction l as [|[k e] l IH]; cbn; [lia|]. destruct (t_key e); cbn; lia. Qed.
  Lemma unkeyed_set l k e e' : dget streq l k = Some e -> t_key e = None -> t_key e' <> None ->
    (unkeyed (dset streq l k e') < unkeyed l)%nat.
  Proof.
    unfold unkeyed. induction l as [|[k' x] l IH]; cbn [dget dset]; [discriminate|]. intros H N N'.
    destruct (streq k k').
    - injection H as ->. cbn. rewrite N. destruct (t_key e'); [|congruence]. cbn. lia.
    - cbn. specialize (IH H N N'). destruct (t_key x); cbn; lia.
  Qed.
  Lemma dset_length {V} (l : list (pystr * V)) k e e' : dget streq l k = Some e -> length (dset streq l k e') = length l.
  Proof.
    induction l as [|[k' x] l IH]; cbn [dget dset]; [discriminate|]. destruct (streq k k'); cbn; auto.
  Qed.

  Lemma longest_r_ok look k i o : longest_r (W := W) look k i = Ok o ->
    match o with Some (j, _) => (0 < j <= i)%nat | None => True end.
  Proof.
    induction i as [|i IH]; cbn [longest_r].
    - intros H. injection H as <-. exact I.
    - destruct (look (firstn (S i) k)) as [[key|]|]; cbn [bind]; [| |discriminate].
      + intros H. injection H as <-. lia.
      + intros H. apply IH in H. destruct o as [[j ?]|]; [lia|exact I].
  Qed.
  Lemma longest_r_stuck look k i : (forall p, ~ stuck (look p)) -> ~ stuck (longest_r (W := W) look k i).
  Proof.
    intros HL. induction i as [|i IH]; cbn [longest_r]; [discriminate|].
    apply bind_stuck; [apply HL|]. intros [key|] _; [discriminate|exact IH].
  Qed.
  Lemma loop_r_stuck look : (forall p, ~ stuck (look p)) -> forall fuel k acc, (length k <= fuel)%nat ->
    ~ stuck (sortkey_loop_r (W := W) look fuel k acc).
  Proof.
    intros HL. induction fuel as [|f IH]; intros k acc Hk.
    - destruct k; [discriminate|cbn in Hk; lia].
    - destruct k as [|c k]; [discriminate|]. cbn [sortkey_loop_r]. apply bind_stuck; [now apply longest_r_stuck|].
      intros o Ho. apply longest_r_ok in Ho. destruct o as [[i [[a b] x]]|]; [|discriminate].
      apply IH. rewrite skipn_length. lia.
  Qed.
  Lemma look_extra_stuck (st : tst) p : ~ stuck (look_extra d st p).
  Proof.
    unfold look_extra. destruct (dget _ _ _) as [e|]; [|discriminate]. destruct (t_key e); [|discriminate].
    destruct (deref st k) as [|a [|b [|c [|]]]]; discriminate.
  Qed.
  Lemma xkey_stuck (st : tst) k : ~ stuck (xkey wcmp zero d st k).
  Proof.
    unfold xkey. apply bind_stuck; [apply loop_r_stuck; [apply look_extra_stuck|lia]|].
    intros [[a b] c] _. destruct (Nat.eqb _ _); discriminate.
  Qed.
  Lemma sk_gt_stuck a b : ~ stuck (sk_gt wcmp zero a b).
  Proof.
    unfold sk_gt, sk_cmp. apply bind_stuck; [|discriminate]. unfold diffLevel. destruct b as [b|]; [|discriminate].
    assert (H : forall m i, ~ stuck (diff_from wcmp zero m i b a)).
    { induction m as [|m IH]; intros i; cbn [diff_from]; [discriminate|].
      apply bind_stuck; [unfold level; destruct (nth_error b i); discriminate|]. intros la _.
      apply bind_stuck; [unfold level; destruct (nth_error a i); discriminate|]. intros lb _.
      destruct (lcmp _ _ _); [apply IH|discriminate..]. }
    apply H.
  Qed.
  Lemma finish_stuck st k b r : ~ stuck (finish_key wcmp zero one d st k b r).
  Proof.
    unfold finish_key. destruct (dget _ _ _) as [e|]; [|discriminate].
    destruct (match t_exp e, b with [], Some be => t_exp be | x, _ => x end) as [|c x]; [discriminate|].
    apply bind_stuck; [apply xkey_stuck|]. intros ek _. apply bind_stuck; [apply sk_gt_stuck|]. intros gt _.
    destruct (if gt then _ else _) as [st1 s]. destruct (if k_plain r then _ else _) as [st2 kr]. discriminate.
  Qed.
  Lemma finish_length st k b r st' : finish_key wcmp zero one d st k b r = Ok st' ->
    length (ts_elts st') = length (ts_elts st).
  Proof.
    unfold finish_key. destruct (dget streq (ts_elts st) k) as [e|] eqn:He; [|discriminate].
    set (x := match t_exp e, b with [], Some be => t_exp be | x, _ => x end).
    assert (L1 : forall e', length (dset streq (dset streq (ts_elts st) k (set_exp e x)) k e') = length (ts_elts st)).
    { intros e'. rewrite (dset_length _ k (set_exp e x)) by (apply dget_dset_same, streq_spec). eapply dset_length; eassumption. }
    destruct x as [|c x'] eqn:Ex.
    - intros H. injection H as <-. cbn. apply L1.
    - destruct (xkey _ _ _ _ _) as [ek|]; [|discriminate]. cbn [bind].
      destruct (sk_gt _ _ _ _) as [gt|]; [|discriminate]. cbn [bind].
      destruct gt.
      + cbn [alloc]. destruct (k_plain r); cbn [alloc]; intros H; injection H as <-; cbn; apply L1.
      + unfold kcopy. destruct (k_plain r); cbn [alloc]; intros H; injection H as <-; cbn; apply L1.
  Qed.
  Lemma shift_stuck e v : ~ stuck (shift_key bump drop nb n e v).
  Proof.
    unfold shift_key. destruct (Nat.ltb _ _); [|discriminate]. cbv zeta. apply bind_stuck.
    - unfold level. destruct (nth_error _ _); discriminate.
    - intros l _. destruct (upd_last _ _); discriminate.
  Qed.
  Lemma kcopy_elts st r : ts_elts (fst (kcopy (W := W) st r)) = ts_elts st.
  Proof. unfold kcopy. now destruct (k_plain r). Qed.

  Lemma run_ends fuel : forall st k, (unkeyed (ts_elts st) < fuel)%nat ->
    ~ stuck (run false fuel st k) /\
    forall st', run false fuel st k = Ok st' -> length (ts_elts st') = length (ts_elts st).
  Proof.
    induction fuel as [|f IH]; intros st k Hf; [lia|]. cbn [sortkey].
    destruct (dget streq (ts_elts st) k) as [e|] eqn:He; [|split; discriminate].
    destruct (t_key e) as [kr0|] eqn:Hk.
    { split; [discriminate|]. intros st' H. injection H as <-. reflexivity. }
    destruct (C09 wcmp zero d (t_base e)) as (dk & ->). cbn [bind].
    destruct (alloc st dk) as [st1 kr] eqn:Ha. assert (E1 : ts_elts st1 = ts_elts st) by (unfold alloc in Ha; injection Ha as <- <-; reflexivity).
    set (st2 := t_set st1 k (set_key e kr)). cbv zeta.
    assert (U2 : (unkeyed (ts_elts st2) < f)%nat).
    { assert (X : (unkeyed (dset streq (ts_elts st) k (set_key e kr)) < unkeyed (ts_elts st))%nat)
        by (apply (unkeyed_set _ k e); [exact He|exact Hk|discriminate]).
      unfold st2, t_set, with_elts. cbn [ts_elts]. rewrite E1. lia. }
    assert (L2 : length (ts_elts st2) = length (ts_elts st)).
    { unfold st2. cbn. rewrite E1. eapply dset_length; eassumption. }
    assert (REST : forall (m : res (tst * kref)), ~ stuck m ->
      (forall p, m = Ok p -> length (ts_elts (fst p)) = length (ts_elts st)) ->
      ~ stuck (do (st, r) <- m;
               do v <- shift_key bump drop nb n e (deref st r);
               finish_key wcmp zero one d (with_cells st (set_nth (k_cell r) v (ts_cells st))) k
                 (dget streq (ts_elts (with_cells st (set_nth (k_cell r) v (ts_cells st)))) (t_base e)) r) /\
      forall st', (do (st, r) <- m;
               do v <- shift_key bump drop nb n e (deref st r);
               finish_key wcmp zero one d (with_cells st (set_nth (k_cell r) v (ts_cells st))) k
                 (dget streq (ts_elts (with_cells st (set_nth (k_cell r) v (ts_cells st)))) (t_base e)) r) = Ok st' ->
        length (ts_elts st') = length (ts_elts st)).
    { intros m Hm HL. split.
      - apply bind_stuck; [exact Hm|]. intros [st3 r] _. apply bind_stuck; [apply shift_stuck|]. intros v _. apply finish_stuck.
      - intros st' H. destruct m as [[st3 r]|]; [|discriminate]. cbn [bind] in H.
        destruct (shift_key _ _ _ _ _ _) as [v|]; [|discriminate]. cbn [bind] in H. apply finish_length in H.
        rewrite H. cbn. exact (HL _ eq_refl). }
    assert (CP : forall r, ~ stuck (Ok (kcopy st2 r)) /\ forall p, Ok (kcopy st2 r) = Ok p -> length (ts_elts (fst p)) = length (ts_elts st)).
    { intros r. split; [discriminate|]. intros p H. injection H as <-. now rewrite kcopy_elts. }
    apply REST.
    - destruct (dget streq (ts_elts st2) (t_base e)) as [b|]; [|apply CP].
      destruct (order_leb _ _); [|apply CP]. destruct (IH st2 (t_base e) U2) as [I1 I2].
      apply bind_stuck; [exact I1|]. intros st3 _. destruct (dget streq (ts_elts st3) (t_base e)) as [b3|]; [|discriminate].
      unfold stuck. destruct (t_short b3); discriminate.
    - intros p Hp. destruct (dget streq (ts_elts st2) (t_base e)) as [b|]; [|now apply (CP kr)].
      destruct (order_leb _ _); [|now apply (CP kr)]. destruct (IH st2 (t_base e) U2) as [I1 I2].
      destruct (run false f st2 (t_base e)) as [st3|]; [|discriminate]. cbn [bind] in Hp.
      destruct (dget streq (ts_elts st3) (t_base e)) as [b3|]; [|discriminate]. destruct (t_short b3); [|discriminate].
      injection Hp as <-. rewrite kcopy_elts. now rewrite (I2 st3 eq_refl).
  Qed.

  Lemma set_all_ends fuel ks : forall st, (length (ts_elts st) < fuel)%nat ->
    ~ stuck (set_all wcmp zero one bump drop d nb n false fuel st ks).
  Proof.
    induction ks as [|k ks IH]; intros st Hf; cbn [set_all]; [discriminate|].
    unfold set_one. destruct (dget streq (ts_elts st) k) as [e|] eqn:He; [|discriminate].
    set (st1 := t_set st k (expand (t_known d st) e)).
    assert (L1 : length (ts_elts st1) = length (ts_elts st)) by (cbn; eapply dset_length; eassumption).
    destruct (run_ends fuel st1 k) as [R1 R2]; [pose proof (unkeyed_le (ts_elts st1)); lia|].
    apply bind_stuck; [exact R1|]. intros st2 E. apply IH. rewrite (R2 st2 E). lia.
  Qed.
End Ends.

(** Calculating the keys of any collation ends: no element, expansion or circular definition makes it go on. *)
Theorem C60_ends :
  forall W (wcmp : W -> W -> comparison) (zero one : W) bump drop d (st : tstate (W := W)) fuel,
    (length (ts_elts st) < fuel)%nat ->
    setSortKeys wcmp zero one bump drop d false fuel st <> Raise OutOfFuel.
Proof.
  intros W wcmp zero one bump drop d st fuel H. unfold setSortKeys. destruct (_ && _)%bool; [|discriminate].
  pose proof (set_all_ends wcmp zero one bump drop d (num_befores (ts_elts st)) (length (ts_elts st)) fuel
                (by_order (ts_elts st)) st H) as X.
  destruct (set_all _ _ _ _ _ _ _ _ _ _ _ _) as [st'|e]; cbn [bind]; [discriminate|].
  intros E. apply X. unfold stuck. congruence.
Qed.

(** Calculating them again with [force] does not end when two elements of the same order are each other's base:
    every bound on the depth of the recursion is too small. *)
Theorem C60_force_refuted :
  forall W (wcmp : W -> W -> comparison) (zero one : W) bump drop d fuel,
    let a := TEl (lit "b") 1 0%N [0%nat] [] None None in
    let b := TEl (lit "a") 1 0%N [0%nat] [] None None in
    setSortKeys wcmp zero one bump drop d true fuel (TSt [(lit "a", a); (lit "b", b)] [] false) = Raise OutOfFuel.
Proof.
  intros W wcmp zero one bump drop d fuel a b.
  pose (bad := fun st : tstate (W := W) =>
    map (fun p => (fst p, (t_base (snd p), t_order (snd p)))) (ts_elts st) = 
    [(lit "a", (lit "b", [0%nat])); (lit "b", (lit "a", [0%nat]))]).
  assert (R : forall fuel nb n st k, bad st -> k = lit "a" \/ k = lit "b" ->
    sortkey wcmp zero one bump drop d nb n true fuel st k = Raise OutOfFuel).
  { clear. induction fuel as [|f IH]; intros nb n st k B Hk; [reflexivity|]. cbn [sortkey].
    unfold bad in B. destruct st as [el cs so]. cbn [ts_elts] in *.
    destruct el as [|[k1 e1] [|[k2 e2] [|]]]; try discriminate B. cbn [map fst snd] in B.
    assert (B' : k1 = lit "a" /\ t_base e1 = lit "b" /\ t_order e1 = [0%nat] /\
                 k2 = lit "b" /\ t_base e2 = lit "a" /\ t_order e2 = [0%nat]) by (injection B; auto 10).
    clear B. destruct B' as (-> & B1 & O1 & -> & B2 & O2).
    assert (GO : forall k' k'' e e', k' <> k'' -> (k'' = lit "a" \/ k'' = lit "b") -> t_base e = k'' -> 
       t_order e' = [0%nat] -> t_order e = [0%nat] ->
       dget streq [(lit "a", e1); (lit "b", e2)] k' = Some e ->
       (forall kr, dget streq (dset streq [(lit "a", e1); (lit "b", e2)] k' (set_key e kr)) k'' = Some e') ->
       (forall cs' kr, bad (TSt (dset streq [(lit "a", e1); (lit "b", e2)] k' (set_key e kr)) cs' so)) ->
       sortkey wcmp zero one bump drop d nb n true (S f) (TSt [(lit "a", e1); (lit "b", e2)] cs so) k' = Raise OutOfFuel).
    { intros k' k'' e e' N K Hb Ho1 Ho2 Hg Hg2 HB. cbn [sortkey ts_elts]. rewrite Hg.
      destruct (C09 wcmp zero d (t_base e)) as (dk & ->). cbn [bind alloc]. cbv zeta.
      cbn [t_set with_elts with_cells ts_elts ts_cells ts_sorted]. rewrite Hb, Hg2, Ho1, Ho2.
      cbn [order_leb lcmp Nat.compare]. rewrite IH by (try apply HB; exact K). cbn [bind].
      destruct (t_key e); reflexivity. }
    destruct Hk as [->| ->].
    - apply (GO (lit "a") (lit "b") e1 e2); auto; try reflexivity; try discriminate.
      intros cs' kr. unfold bad. cbn. now rewrite B1, O1, B2, O2.
    - apply (GO (lit "b") (lit "a") e2 e1); auto; try reflexivity; try discriminate.
      intros cs' kr. unfold bad. cbn. now rewrite B1, O1, B2, O2. }
  unfold setSortKeys. cbn [ts_elts ts_sorted length Nat.ltb Nat.leb negb orb andb].
  change (by_order [(lit "a", a); (lit "b", b)]) with [lit "a"; lit "b"]. cbn [set_all].
  unfold set_one. cbn [ts_elts].
  change (dget streq [(lit "a", a); (lit "b", b)] (lit "a")) with (Some a). cbn [bind].
  rewrite R; [reflexivity| |now left].
  unfold bad, t_set, with_elts. cbn [ts_elts].
  assert (E : expand (t_known d (TSt [(lit "a", a); (lit "b", b)] [] false)) a = a) by reflexivity.
  rewrite E. reflexivity.
Qed.
