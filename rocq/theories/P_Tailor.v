(** Proofs about the calculation of tailored sort keys (M_Tailor), for tailorings without expansions. *)
From Verif Require Import Py PyFacts M_UnicodeSets P_UnicodeSets M_Collation P_Collation P_Collation2 M_Tailor.

Lemma nth_set_nth_same {A} i (x dflt : A) l : (i < length l)%nat -> nth i (set_nth i x l) dflt = x.
Proof. revert l; induction i as [|i IH]; intros [|y l] H; cbn in *; try lia; auto. apply IH. lia. Qed.
Lemma nth_set_nth_other {A} i j (x dflt : A) l : i <> j -> nth j (set_nth i x l) dflt = nth j l dflt.
Proof.
  revert j l; induction i as [|i IH]; intros [|j] [|y l] H; cbn; try congruence; auto; try lia.
Qed.
Lemma set_nth_length {A} i (x : A) l : length (set_nth i x l) = length l.
Proof. revert l; induction i as [|i IH]; intros [|y l]; cbn; auto. Qed.

Lemma upd_last_spec {A} (f : A -> A) l l' : upd_last f l = Some l' <-> exists p x, l = p ++ [x] /\ l' = p ++ [f x].
Proof.
  revert l'; induction l as [|y l IH]; intros l'.
  - cbn. split; [discriminate|]. intros (p & x & E & _). now destruct p.
  - cbn [upd_last]. destruct l as [|z l].
    + split.
      * intros H. injection H as <-. exists [], y. auto.
      * intros (p & x & E & ->). destruct p as [|a p]; [injection E as ->; reflexivity|].
        injection E as _ E. now destruct p.
    + destruct (upd_last f (z :: l)) as [r|] eqn:E.
      * split.
        -- intros H. injection H as <-.
           destruct (proj1 (IH r) eq_refl) as (p & x & E1 & ->); exists (y :: p), x; cbn; rewrite E1; auto.
        -- intros (p & x & E1 & ->). destruct p as [|a p]; [discriminate|]. injection E1 as -> E1. cbn.
           assert (H : Some r = Some (p ++ [f x])) by (apply IH; eauto). now injection H as ->.
      * split; [discriminate|]. intros (p & x & E1 & ->). destruct p as [|a p]; [discriminate|]. injection E1 as -> E1.
        assert (H : None = Some (p ++ [f x])) by (apply IH; eauto). discriminate.
Qed.

Definition bare (e : tel) : tel := TEl (t_base e) (t_level e) (t_before e) (t_order e) (t_exp e) None None.
Definition bare_p (p : pystr * tel) : pystr * tel := (fst p, bare (snd p)).

Lemma dget_map_bare elts k : dget streq (map bare_p elts) k = option_map bare (dget streq elts k).
Proof.
  induction elts as [|[k' e] elts IH]; [reflexivity|]. cbn [map bare_p fst snd dget].
  destruct (streq k k'); [reflexivity|exact IH].
Qed.
Lemma map_bare_dset elts k e e' : dget streq elts k = Some e -> bare e' = bare e ->
  map bare_p (dset streq elts k e') = map bare_p elts.
Proof.
  intros H E. induction elts as [|[k' x] elts IH]; [discriminate|]. cbn [dset dget] in *.
  destruct (streq k k'); cbn [map]; unfold bare_p at 1 3; cbn [fst snd].
  - injection H as ->. now rewrite E.
  - now rewrite IH.
Qed.
Lemma dset_same_id {V} (elts : list (pystr * V)) k e : dget streq elts k = Some e -> dset streq elts k e = elts.
Proof.
  induction elts as [|[k' x] elts IH]; [discriminate|]. cbn [dset dget].
  destruct (streq k k'); intros H; [now injection H as ->|]. now rewrite IH.
Qed.

Section Tailor.
  Context {W : Type} (wcmp : W -> W -> comparison) (zero one : W) (bump drop : nat -> nat -> W -> W).
  Variable d : list (pystr * list (W * W * W)).
  Variables nb n : nat.
  Notation skey := (list (list W)).
  Notation shift := (shift_key bump drop nb n).
  Notation tst := (tstate (W := W)).

  Lemma shift_bare e v : shift (bare e) v = shift e v.
  Proof. reflexivity. Qed.

  Variable elts0 : list (pystr * tel).
  Lemma C09 k : exists v, dkey wcmp zero d k = Ok v.
  Proof.
    unfold dkey, ducetSortKey.
    destruct (sortkey_loop_spec (key_of d (fun _ => None) None) (length k) k ([], [], []) (le_n _)) as (ks & rest & HS & E).
    rewrite E. cbn [bind]. destruct (Nat.eqb _ _); eauto.
  Qed.

  Hypothesis noexp : forall k e, dget streq elts0 k = Some e -> t_exp e = [].

  (** the key of an element: its base's, changed *)
  Inductive tk : pystr -> skey -> Prop :=
  | tk_base k e b vb v : dget streq elts0 k = Some e -> dget streq elts0 (t_base e) = Some b ->
      order_leb (t_order b) (t_order e) = true -> tk (t_base e) vb -> shift e vb = Ok v -> tk k v
  | tk_root k e vb v : dget streq elts0 k = Some e ->
      (forall b, dget streq elts0 (t_base e) = Some b -> order_leb (t_order b) (t_order e) = false) ->
      dkey wcmp zero d (t_base e) = Ok vb -> shift e vb = Ok v -> tk k v.

  Lemma tk_det k v : tk k v -> forall v', tk k v' -> v = v'.
  Proof.
    induction 1 as [k e b vb v He Hb Ho Ht IH Hs|k e vb v He Hb Hd Hs]; intros v' H'.
    - inversion H' as [k' e' b' vb' v'' He' Hb' Ho' Ht' Hs'|k' e' vb' v'' He' Hb' Hd' Hs']; subst;
        rewrite He in He'; injection He' as <-.
      + apply IH in Ht' as ->. congruence.
      + rewrite (Hb' _ Hb) in Ho. discriminate.
    - inversion H' as [k' e' b' vb' v'' He' Hb' Ho' Ht' Hs'|k' e' vb' v'' He' Hb' Hd' Hs']; subst;
        rewrite He in He'; injection He' as <-.
      + rewrite (Hb _ Hb') in Ho'. discriminate.
      + congruence.
  Qed.

  Definition shape (st : tst) : Prop := map bare_p (ts_elts st) = elts0.
  Definition good (st : tst) (k : pystr) : Prop :=
    exists e r v, dget streq (ts_elts st) k = Some e /\ t_short e = Some r /\ t_key e = Some r /\
      k_plain r = false /\ (k_cell r < length (ts_cells st))%nat /\ deref st r = v /\ tk k v.

  Lemma shape_get st k : shape st -> dget streq elts0 k = option_map bare (dget streq (ts_elts st) k).
  Proof. intros <-. apply dget_map_bare. Qed.
  Lemma shape_set st k e e' : shape st -> dget streq (ts_elts st) k = Some e -> bare e' = bare e ->
    shape (t_set st k e').
  Proof. unfold shape. intros <- H E. cbn. eapply map_bare_dset; eassumption. Qed.
  Lemma shape_cells st c : shape st -> shape (with_cells st c).
  Proof. exact (fun H => H). Qed.

  (** the cells of [st] are kept by [st'] *)
  Definition keeps (st st' : tst) : Prop :=
    (length (ts_cells st) <= length (ts_cells st'))%nat /\
    forall i, (i < length (ts_cells st))%nat -> nth i (ts_cells st') [] = nth i (ts_cells st) [].
  Lemma keeps_refl st : keeps st st.
  Proof. split; auto. Qed.
  Lemma keeps_trans a b c : keeps a b -> keeps b c -> keeps a c.
  Proof. intros [H1 H2] [H3 H4]. split; [lia|]. intros i Hi. rewrite H4 by lia. apply H2. lia. Qed.
  Lemma keeps_alloc st v st' r : alloc st v = (st', r) ->
    keeps st st' /\ ts_elts st' = ts_elts st /\ k_plain r = false /\ k_cell r = length (ts_cells st) /\
    ts_cells st' = ts_cells st ++ [v].
  Proof.
    unfold alloc. intros H. injection H as <- <-. cbn. split; [|auto]. split; cbn.
    - rewrite app_length. cbn. lia.
    - intros i Hi. now rewrite app_nth1 by lia.
  Qed.
  Lemma good_keep st st' k : keeps st st' -> good st k ->
    dget streq (ts_elts st') k = dget streq (ts_elts st) k -> good st' k.
  Proof.
    intros [K1 K2] (e & r & v & H1 & H2 & H3 & H4 & H5 & H6 & H7) E.
    exists e, r, v. rewrite E. repeat split; auto; [lia|]. unfold deref in *. now rewrite K2.
  Qed.

  (** what one call of [sortkey] does *)
  Definition inv (force : bool) (st : tst) : Prop :=
    shape st /\ (force = false -> forall k e, dget streq (ts_elts st) k = Some e -> t_short e <> None -> good st k).
  Notation run := (sortkey wcmp zero one bump drop d nb n).

  Lemma run_ok force fuel : forall st st' k, inv force st -> run force fuel st k = Ok st' ->
    inv force st' /\ keeps st st' /\
    (forall k', good st k' -> good st' k') /\
    (forall e, dget streq (ts_elts st) k = Some e -> (t_key e = None \/ force = true) -> good st' k) /\
    (forall k', k' <> k -> good st' k' \/ dget streq (ts_elts st') k' = dget streq (ts_elts st) k').
  Proof.
    induction fuel as [|f IH]; intros st st' k Hinv H; [discriminate|]. cbn [sortkey] in H.
    destruct (dget streq (ts_elts st) k) as [e|] eqn:He; [|discriminate].
    assert (Hcase : (t_key e <> None /\ force = false /\ st' = st) \/
      ((t_key e = None \/ force = true) /\ exists dk, dkey wcmp zero d (t_base e) = Ok dk)).
    { destruct (t_key e) as [kr|]; destruct force.
      - right. split; [auto|]. destruct (dkey wcmp zero d (t_base e)); [eauto|discriminate].
      - left. injection H as <-. repeat split; congruence.
      - right. split; [auto|]. destruct (dkey wcmp zero d (t_base e)); [eauto|discriminate].
      - right. split; [auto|]. destruct (dkey wcmp zero d (t_base e)); [eauto|discriminate]. }
    destruct Hcase as [(Hk & -> & ->)|(Hk & dk & Hdk)].
    { repeat split; auto; try apply Hinv; try apply keeps_refl.
      intros e0 He0 [X|X]; congruence. }
    assert (H' : bind (dkey wcmp zero d (t_base e)) (fun dk =>
       let (st, kr) := alloc st dk in
                let st := t_set st k (set_key e kr) in
                do (st, r) <-
                   match dget streq (ts_elts st) (t_base e) with
                   | Some b =>
                       if order_leb (t_order b) (t_order e) then
                         do st <- run force f st (t_base e);
                         match dget streq (ts_elts st) (t_base e) with
                         | Some b => match t_short b with
                                     | Some s => Ok (kcopy st s)
                                     | None => Raise AttributeError
                                     end
                         | None => Raise KeyError
                         end
                       else Ok (kcopy st kr)
                   | None => Ok (kcopy st kr)
                   end;
                do v <- shift e (deref st r);
                let st := with_cells st (set_nth (k_cell r) v (ts_cells st)) in
                finish_key wcmp zero one d st k (dget streq (ts_elts st) (t_base e)) r) = Ok st').
    { destruct (t_key e) as [kr|]; destruct force; try exact H. destruct Hk; discriminate. }
    clear H. rename H' into H. rewrite Hdk in H. cbn [bind] in H.
    destruct (alloc st dk) as [st1 kr] eqn:Ha. apply keeps_alloc in Ha as (K1 & E1 & P1 & C1 & L1).
    set (st2 := t_set st1 k (set_key e kr)) in *.
    assert (K2 : keeps st st2) by (exact K1).
    destruct Hinv as [Hsh Hgood].
    assert (S2 : shape st2).
    { apply shape_set with e; [unfold shape; now rewrite E1|now rewrite E1|reflexivity]. }
    assert (G2 : forall k', k' <> k -> dget streq (ts_elts st2) k' = dget streq (ts_elts st) k').
    { intros k' N. unfold st2. cbn. rewrite (dget_dset_other _ streq_spec) by exact N. now rewrite E1. }
    assert (G2k : dget streq (ts_elts st2) k = Some (set_key e kr)).
    { unfold st2. cbn. apply dget_dset_same, streq_spec. }
    assert (E0 : dget streq elts0 k = Some (bare e)) by (rewrite (shape_get st) by exact Hsh; now rewrite He).
    assert (Kr2 : deref st2 kr = dk).
    { unfold deref. rewrite C1. unfold st2. cbn. rewrite L1. rewrite app_nth2 by lia. now rewrite Nat.sub_diag. }
    assert (X0 : t_exp e = []) by (exact (noexp _ _ E0)).
    assert (FIN : forall st3 vb v, shape st3 -> keeps st st3 ->
      (forall k', k' <> k -> good st k' -> good st3 k') ->
      (force = false -> forall k' e', k' <> k -> dget streq (ts_elts st3) k' = Some e' -> t_short e' <> None -> good st3 k') ->
      (forall k', k' <> k -> good st3 k' \/ dget streq (ts_elts st3) k' = dget streq (ts_elts st) k') ->
      shift e vb = Ok v -> tk k v ->
      (let (st4, r) := alloc st3 vb in
       do v <- shift e (deref st4 r);
       let st5 := with_cells st4 (set_nth (k_cell r) v (ts_cells st4)) in
       finish_key wcmp zero one d st5 k (dget streq (ts_elts st5) (t_base e)) r) = Ok st' ->
      inv force st' /\ keeps st st' /\
      (forall k', good st k' -> good st' k') /\
      (forall e, Some e = Some e -> (t_key e = None \/ force = true) -> good st' k) /\
      (forall k', k' <> k -> good st' k' \/ dget streq (ts_elts st') k' = dget streq (ts_elts st) k')).
    { clear H. intros st3 vb v S3 K3 GD SH NG HS HT H.
      destruct (alloc st3 vb) as [st4 r] eqn:Ha. apply keeps_alloc in Ha as (K4 & E4 & P4 & C4 & L4).
      assert (D4 : deref st4 r = vb).
      { unfold deref. rewrite C4, L4, app_nth2 by lia. now rewrite Nat.sub_diag. }
      rewrite D4, HS in H. cbn [bind] in H.
      set (st5 := with_cells st4 (set_nth (k_cell r) v (ts_cells st4))) in *. cbv zeta in H.
      assert (L5 : length (ts_cells st5) = S (length (ts_cells st3))).
      { unfold st5. cbn. rewrite set_nth_length, L4, app_length. cbn. lia. }
      assert (K5 : keeps st3 st5).
      { split; [lia|]. intros i Hi. unfold st5. cbn. rewrite nth_set_nth_other by lia. now apply K4. }
      assert (D5 : deref st5 r = v).
      { unfold deref, st5. cbn. apply nth_set_nth_same. rewrite L4, app_length. cbn. lia. }
      assert (E5 : ts_elts st5 = ts_elts st3) by (unfold st5; cbn; exact E4).
      unfold finish_key in H.
      assert (Hk3 : exists e3, dget streq (ts_elts st5) k = Some e3 /\ bare e3 = bare e).
      { rewrite E5. rewrite (shape_get st3 k S3) in E0.
        destruct (dget streq (ts_elts st3) k) as [e3|]; [|discriminate]. exists e3. split; [reflexivity|].
        cbn [option_map] in E0. congruence. }
      destruct Hk3 as (e3 & Hk3 & B3). rewrite Hk3 in H.
      assert (X3 : t_exp e3 = []) by (injection B3 as _ _ _ _ ->; exact X0).
      assert (XB : forall b, dget streq (ts_elts st5) (t_base e) = Some b -> t_exp b = []).
      { intros b Hb. rewrite E5 in Hb. pose proof (shape_get st3 (t_base e) S3) as X. rewrite Hb in X.
        exact (noexp _ _ X). }
      rewrite X3 in H.
      assert (H' : Ok (t_set (t_set st5 k (set_exp e3 [])) k (set_key (set_short (set_exp e3 []) r) r)) = Ok st').
      { destruct (dget streq (ts_elts st5) (t_base e)) as [b|]; [|exact H]. now rewrite (XB b eq_refl) in H. }
      clear H. injection H' as H'.
      assert (Gk : dget streq (ts_elts st') k = Some (set_key (set_short (set_exp e3 []) r) r)).
      { rewrite <- H'. cbn. apply dget_dset_same, streq_spec. }
      assert (Go : forall k', k' <> k -> dget streq (ts_elts st') k' = dget streq (ts_elts st3) k').
      { intros k' N. rewrite <- H', <- E5. cbn. now rewrite !(dget_dset_other _ streq_spec) by exact N. }
      assert (C' : ts_cells st' = ts_cells st5) by (now rewrite <- H').
      assert (K' : keeps st3 st') by (split; rewrite C'; apply K5).
      assert (Sh' : shape st').
      { rewrite <- H'. eapply shape_set with (set_exp e3 []).
        - eapply shape_set with e3; [unfold shape; rewrite E5; exact S3|exact Hk3|]. unfold bare. cbn. now rewrite X3.
        - cbn. apply dget_dset_same, streq_spec.
        - reflexivity. }
      assert (GK : good st' k).
      { eexists _, r, v. split; [exact Gk|]. repeat split; auto.
        - rewrite C', L5. lia.
        - unfold deref. rewrite C'. exact D5. }
      assert (GO : forall k', k' <> k -> good st3 k' -> good st' k').
      { intros k' N G. eapply good_keep; [exact K'|exact G|now apply Go]. }
      split; [|split; [|split; [|split]]].
      - split; [exact Sh'|]. intros Ff k' e' He' Hs'. destruct (streq_spec k' k) as [->|N]; [exact GK|].
        apply GO; [exact N|]. apply (SH Ff k' e' N); [|exact Hs']. now rewrite <- Go.
      - eapply keeps_trans; eassumption.
      - intros k' G. destruct (streq_spec k' k) as [->|N]; [exact GK|]. apply GO; auto.
      - intros _ _ _. exact GK.
      - intros k' N. destruct (NG k' N) as [G|E]; [left; now apply GO|right]. now rewrite Go. }
    assert (SHORT2 : force = false -> forall k' e', dget streq (ts_elts st2) k' = Some e' -> t_short e' <> None ->
      k' <> k /\ good st2 k').
    { intros Ff k' e' He' Hs'. destruct (streq_spec k' k) as [->|N].
      - exfalso. rewrite G2k in He'. injection He' as <-. cbn in Hs'.
        destruct (Hgood Ff k e He Hs') as (e1 & r & v & X1 & X2 & X3 & _). rewrite He in X1. injection X1 as <-.
        destruct Hk as [X|X]; congruence.
      - split; [exact N|]. rewrite G2 in He' by exact N. eapply good_keep; [exact K2|eapply Hgood; eassumption|now apply G2]. }
    assert (ROOT : (forall b, dget streq elts0 (t_base e) = Some b -> order_leb (t_order b) (t_order e) = false) ->
      (let (st4, r) := alloc st2 dk in
       do v <- shift e (deref st4 r);
       let st5 := with_cells st4 (set_nth (k_cell r) v (ts_cells st4)) in
       finish_key wcmp zero one d st5 k (dget streq (ts_elts st5) (t_base e)) r) = Ok st' ->
      inv force st' /\ keeps st st' /\
      (forall k', good st k' -> good st' k') /\
      (forall e, Some e = Some e -> (t_key e = None \/ force = true) -> good st' k) /\
      (forall k', k' <> k -> good st' k' \/ dget streq (ts_elts st') k' = dget streq (ts_elts st) k')).
    { intros HB H2.
      assert (Hv : exists v, shift e dk = Ok v).
      { destruct (alloc st2 dk) as [st4 r] eqn:Ha. apply keeps_alloc in Ha as (_ & _ & _ & C4 & L4).
        assert (D4 : deref st4 r = dk).
        { unfold deref. rewrite C4, L4, app_nth2 by lia. now rewrite Nat.sub_diag. }
        rewrite D4 in H2. destruct (shift e dk); [eauto|discriminate]. }
      destruct Hv as (v & Hv). apply FIN with st2 dk v; auto.
      - intros k' N G. eapply good_keep; [exact K2|exact G|now apply G2].
      - intros Ff k' e' N He' Hs'. eapply SHORT2; eassumption.
      - apply tk_root with (bare e) dk; auto. }
    assert (KC : kcopy st2 kr = alloc st2 dk) by (unfold kcopy; now rewrite P1, Kr2).
    rewrite KC in H.
    assert (GB : dget streq elts0 (t_base e) = option_map bare (dget streq (ts_elts st2) (t_base e)))
      by (now apply shape_get).
    assert (WEAK : forall P, (forall e0 : tel, Some e0 = Some e0 -> t_key e0 = None \/ force = true -> P) ->
                   (forall e0, Some e = Some e0 -> t_key e0 = None \/ force = true -> P)).
    { intros P HP e0 _ X. exact (HP e0 eq_refl X). }
    destruct (dget streq (ts_elts st2) (t_base e)) as [b|] eqn:Hb.
    2:{ cbn [bind] in H. destruct (ROOT) as (R1 & R2 & R3 & R4 & R5).
        - intros b X. rewrite X in GB. discriminate.
        - exact H.
        - repeat (split; [assumption|]). split; [|assumption]. apply WEAK. exact R4. }
    destruct (order_leb (t_order b) (t_order e)) eqn:Ho.
    2:{ cbn [bind] in H. destruct (ROOT) as (R1 & R2 & R3 & R4 & R5).
        - intros b' X. rewrite X in GB. injection GB as ->. exact Ho.
        - exact H.
        - repeat (split; [assumption|]). split; [|assumption]. apply WEAK. exact R4. }
    destruct (run force f st2 (t_base e)) as [st3|] eqn:Hrun; cbn [bind] in H; [|discriminate].
    assert (I2 : inv force st2).
    { split; [exact S2|]. intros Ff k' e' He' Hs'. eapply SHORT2; eassumption. }
    destruct (IH st2 st3 (t_base e) I2 Hrun) as ([S3 SH3] & K3 & G3 & GB3 & NG3).
    destruct (dget streq (ts_elts st3) (t_base e)) as [b3|] eqn:Hb3; [|discriminate].
    destruct (t_short b3) as [s|] eqn:Hs3; [|discriminate].
    assert (GG : good st3 (t_base e)).
    { destruct force eqn:Ff; [apply (GB3 b Hb); now right|]. apply (SH3 eq_refl _ b3 Hb3). congruence. }
    destruct GG as (b3' & s' & vb & X1 & X2 & X3 & X4 & X5 & X6 & X7).
    rewrite Hb3 in X1. injection X1 as <-. rewrite Hs3 in X2. injection X2 as <-.
    cbn [bind] in H. unfold kcopy in H. rewrite X4, X6 in H.
    assert (Hv : exists v, shift e vb = Ok v).
    { destruct (alloc st3 vb) as [st4 r] eqn:Ha. apply keeps_alloc in Ha as (_ & _ & _ & C4 & L4).
      assert (D4 : deref st4 r = vb).
      { unfold deref. rewrite C4, L4, app_nth2 by lia. now rewrite Nat.sub_diag. }
      rewrite D4 in H. destruct (shift e vb); [eauto|discriminate]. }
    destruct Hv as (v & Hv).
    assert (GBk : good st3 (t_base e)).
    { exists b3, s, vb. repeat split; auto. }
    destruct (FIN st3 vb v) as (R1 & R2 & R3 & R4 & R5); auto.
    - eapply keeps_trans; eassumption.
    - intros k' N G. apply G3. eapply good_keep; [exact K2|exact G|now apply G2].
    - intros Ff k' e' N He' Hs'. eapply SH3; eassumption.
    - intros k' N. destruct (streq_spec k' (t_base e)) as [->|N2]; [now left|].
      destruct (NG3 k' N2) as [G|E]; [now left|right]. rewrite E. now apply G2.
    - apply tk_base with (bare e) (bare b) vb; auto.
    - repeat (split; [assumption|]). split; [|assumption]. apply WEAK. exact R4.
  Qed.

  Definition known_base (e : tel) : Prop :=
    t_base e = [] \/ dmem streq elts0 (t_base e) = true \/ dmem streq d (t_base e) = true.

  Lemma known_shape st p : shape st -> t_known d st p = (dmem streq elts0 p || dmem streq d p)%bool.
  Proof.
    intros HS. unfold t_known, dmem. rewrite (shape_get st p HS). now destruct (dget streq (ts_elts st) p).
  Qed.
  Lemma expand_id st k e : shape st -> dget streq (ts_elts st) k = Some e -> known_base (bare e) ->
    expand (t_known d st) e = e.
  Proof.
    intros HS He KB. unfold expand. pose proof (shape_get st k HS) as X. rewrite He in X. apply noexp in X. cbn in X.
    rewrite X. destruct KB as [E|E].
    - cbn in E. rewrite E. reflexivity.
    - destruct (t_base e) as [|c b] eqn:Eb; [reflexivity|].
      assert (K : t_known d st (c :: b) = true).
      { rewrite known_shape by exact HS. cbn [bare t_base] in E. rewrite Eb in E. apply orb_true_iff. tauto. }
      replace (longest_known (t_known d st) (c :: b) (length (c :: b))) with (Some (length (c :: b))).
      + rewrite firstn_all, skipn_all. unfold set_base_exp. destruct e; cbn in *. now subst.
      + cbn [longest_known length]. change (S (length b)) with (length (c :: b)). now rewrite firstn_all, K.
  Qed.

  Lemma set_one_run st k e force fuel : shape st -> dget streq (ts_elts st) k = Some e -> known_base (bare e) ->
    set_one wcmp zero one bump drop d nb n force fuel st k = run force fuel st k.
  Proof.
    intros HS He KB. unfold set_one. rewrite He, (expand_id st k e) by assumption.
    unfold t_set. rewrite dset_same_id by exact He. now destruct st.
  Qed.

  Definition top (force : bool) (st : tst) : Prop :=
    inv force st /\ (force = false -> forall k e, dget streq (ts_elts st) k = Some e -> t_key e <> None -> good st k).

  Hypothesis allknown : forall k e, dget streq elts0 k = Some e -> known_base e.

  Lemma set_all_ok force fuel ks : forall st st', top force st ->
    set_all wcmp zero one bump drop d nb n force fuel st ks = Ok st' ->
    top force st' /\ (forall k, good st k -> good st' k) /\ (forall k, In k ks -> good st' k).
  Proof.
    induction ks as [|k ks IH]; intros st st' T H; cbn [set_all] in H.
    - injection H as <-. repeat split; try apply T; auto. intros k [].
    - destruct (dget streq (ts_elts st) k) as [e|] eqn:He.
      2:{ unfold set_one in H. rewrite He in H. discriminate. }
      destruct T as [I T].
      assert (KB : known_base (bare e)).
      { eapply allknown. rewrite (shape_get st k (proj1 I)), He. reflexivity. }
      rewrite (set_one_run st k e) in H; [|apply I|exact He|exact KB].
      destruct (run force fuel st k) as [st1|] eqn:R; [|discriminate]. cbn [bind] in H.
      destruct (run_ok force fuel st st1 k I R) as (I1 & K1 & G1 & Gk & NG).
      assert (GK : good st1 k).
      { destruct force eqn:Ff; [apply (Gk e He); auto|].
        destruct (t_key e) as [r|] eqn:Hk; [|apply (Gk e He); auto].
        apply G1. apply (T eq_refl k e He). congruence. }
      assert (T1 : top force st1).
      { split; [exact I1|]. intros Ff k' e' He' Hk'. destruct (streq_spec k' k) as [->|N]; [exact GK|].
        destruct (NG k' N) as [G|E]; [exact G|]. apply G1. apply (T Ff k' e'); [now rewrite <- E|exact Hk']. }
      destruct (IH st1 st' T1 H) as (T' & G' & A'). split; [exact T'|]. split; [auto|].
      intros k' [<-|Hin]; [now apply G'|now apply A'].
  Qed.


  (** * When it succeeds: every chain of bases ends, and no level that is changed is empty *)
  Inductive tkd : nat -> pystr -> skey -> Prop :=
  | tkd_base m k e b vb v : dget streq elts0 k = Some e -> dget streq elts0 (t_base e) = Some b ->
      order_leb (t_order b) (t_order e) = true -> tkd m (t_base e) vb -> shift e vb = Ok v -> tkd (S m) k v
  | tkd_root k e vb v : dget streq elts0 k = Some e ->
      (forall b, dget streq elts0 (t_base e) = Some b -> order_leb (t_order b) (t_order e) = false) ->
      dkey wcmp zero d (t_base e) = Ok vb -> shift e vb = Ok v -> tkd 1 k v.
  Lemma tk_tkd k v : tk k v -> exists m, tkd m k v.
  Proof.
    induction 1 as [k e b vb v He Hb Ho Ht (m & IH) Hs|k e vb v He Hb Hd Hs].
    - exists (S m). econstructor; eassumption.
    - exists 1%nat. eapply tkd_root; eassumption.
  Qed.
  Lemma tkd_tk m k v : tkd m k v -> tk k v.
  Proof. induction 1; [eapply tk_base|eapply tk_root]; eassumption. Qed.
  Lemma tkd_det m k v : tkd m k v -> forall m' v', tkd m' k v' -> m = m'.
  Proof.
    induction 1 as [m k e b vb v He Hb Ho Ht IH Hs|k e vb v He Hb Hd Hs]; intros m' v' H'.
    - inversion H' as [m1 k' e' b' vb' v'' He' Hb' Ho' Ht' Hs'|k' e' vb' v'' He' Hb' Hd' Hs']; subst;
        rewrite He in He'; injection He' as <-.
      + f_equal. eapply IH. eassumption.
      + rewrite (Hb' _ Hb) in Ho. discriminate.
    - inversion H' as [m1 k' e' b' vb' v'' He' Hb' Ho' Ht' Hs'|k' e' vb' v'' He' Hb' Hd' Hs']; subst;
        rewrite He in He'; injection He' as <-.
      + rewrite (Hb _ Hb') in Ho'. discriminate.
      + reflexivity.
  Qed.
  Lemma tkd_chain m k v : tkd m k v -> exists l, NoDup l /\ length l = m /\
    forall x, In x l -> In x (dkeys elts0) /\ exists m' v', tkd m' x v' /\ (m' <= m)%nat.
  Proof.
    induction 1 as [m k e b vb v He Hb Ho Ht (l & ND & LL & IH) Hs|k e vb v He Hb Hd Hs].
    - exists (k :: l). assert (T : tkd (S m) k v) by (econstructor; eassumption). split; [|split].
      + constructor; [|exact ND]. intros Hin. destruct (IH k Hin) as (_ & m' & v' & T' & Hm).
        pose proof (tkd_det _ _ _ T _ _ T'). lia.
      + cbn. now rewrite LL.
      + intros x [<-|Hin].
        * split; [apply (dget_Some_iff _ streq_spec); eauto|]. eauto.
        * destruct (IH x Hin) as (A & m' & v' & T' & Hm). split; [exact A|]. exists m', v'. split; [exact T'|lia].
    - exists [k]. split; [|split]; [repeat constructor; tauto|reflexivity|].
      intros x [<-|[]]. split; [apply (dget_Some_iff _ streq_spec); eauto|]. exists 1%nat, v.
      split; [eapply tkd_root; eassumption|lia].
  Qed.
  Lemma tkd_bound m k v : tkd m k v -> (m <= length elts0)%nat.
  Proof.
    intros H. destruct (tkd_chain m k v H) as (l & ND & <- & HI).
    assert (I : incl l (dkeys elts0)) by (intros x Hx; now apply HI).
    pose proof (NoDup_incl_length ND I) as L. unfold dkeys in L. now rewrite map_length in L.
  Qed.

  Lemma finish_noexp st k e b r : dget streq (ts_elts st) k = Some e -> t_exp e = [] ->
    (forall be, b = Some be -> t_exp be = []) -> exists st', finish_key wcmp zero one d st k b r = Ok st'.
  Proof.
    intros He X XB. unfold finish_key. rewrite He, X. destruct b as [be|]; [rewrite (XB be eq_refl)|]; eauto.
  Qed.

  Lemma run_progress force m : forall fuel st k v, inv force st -> tkd m k v -> (m <= fuel)%nat ->
    (force = false -> forall k' e' m' v', dget streq (ts_elts st) k' = Some e' -> t_key e' <> None ->
       tkd m' k' v' -> (m' <= m)%nat -> good st k') ->
    exists st', run force fuel st k = Ok st'.
  Proof.
    induction m as [|m IH]; intros fuel st k v Hinv T Hf HP; [inversion T|].
    destruct fuel as [|f]; [lia|]. cbn [sortkey].
    assert (Hk0 : exists e0, dget streq elts0 k = Some e0) by (inversion T; eauto).
    destruct Hk0 as (e0 & E0). destruct Hinv as [Hsh Hgood].
    pose proof (shape_get st k Hsh) as Ee. rewrite E0 in Ee.
    destruct (dget streq (ts_elts st) k) as [e|] eqn:He; [|discriminate]. cbn [option_map] in Ee. injection Ee as ->.
    assert (Hcase : (t_key e <> None /\ force = false) \/ (t_key e = None \/ force = true)).
    { destruct (t_key e); destruct force; auto. left. split; congruence. }
    destruct Hcase as [[Hk Ff]|Hk].
    { subst force. destruct (t_key e) as [kr|]; [eauto|congruence]. }
    destruct (C09 (t_base e)) as (dk & Hdk).
    assert (GOAL : exists st', bind (dkey wcmp zero d (t_base e)) (fun dk =>
       let (st, kr) := alloc st dk in
                let st := t_set st k (set_key e kr) in
                do (st, r) <-
                   match dget streq (ts_elts st) (t_base e) with
                   | Some b =>
                       if order_leb (t_order b) (t_order e) then
                         do st <- run force f st (t_base e);
                         match dget streq (ts_elts st) (t_base e) with
                         | Some b => match t_short b with
                                     | Some s => Ok (kcopy st s)
                                     | None => Raise AttributeError
                                     end
                         | None => Raise KeyError
                         end
                       else Ok (kcopy st kr)
                   | None => Ok (kcopy st kr)
                   end;
                do v <- shift e (deref st r);
                let st := with_cells st (set_nth (k_cell r) v (ts_cells st)) in
                finish_key wcmp zero one d st k (dget streq (ts_elts st) (t_base e)) r) = Ok st').
    2:{ destruct (t_key e) as [kr|]; destruct force; try exact GOAL. destruct Hk; discriminate. }
    rewrite Hdk. cbn [bind].
    destruct (alloc st dk) as [st1 kr] eqn:Ha. apply keeps_alloc in Ha as (K1 & E1 & P1 & C1 & L1).
    set (st2 := t_set st1 k (set_key e kr)) in *. cbv zeta.
    assert (K2 : keeps st st2) by (exact K1).
    assert (S2 : shape st2).
    { apply shape_set with e; [unfold shape; now rewrite E1|now rewrite E1|reflexivity]. }
    assert (G2 : forall k', k' <> k -> dget streq (ts_elts st2) k' = dget streq (ts_elts st) k').
    { intros k' N. unfold st2. cbn. rewrite (dget_dset_other _ streq_spec) by exact N. now rewrite E1. }
    assert (G2k : dget streq (ts_elts st2) k = Some (set_key e kr)).
    { unfold st2. cbn. apply dget_dset_same, streq_spec. }
    assert (Kr2 : deref st2 kr = dk).
    { unfold deref. rewrite C1. unfold st2. cbn. rewrite L1. rewrite app_nth2 by lia. now rewrite Nat.sub_diag. }
    assert (KC : kcopy st2 kr = alloc st2 dk) by (unfold kcopy; now rewrite P1, Kr2).
    rewrite KC. clear KC Kr2.
    assert (FIN : forall st3 vb v, shape st3 -> shift e vb = Ok v -> exists st',
      (let (st4, r) := alloc st3 vb in
       do v <- shift e (deref st4 r);
       let st5 := with_cells st4 (set_nth (k_cell r) v (ts_cells st4)) in
       finish_key wcmp zero one d st5 k (dget streq (ts_elts st5) (t_base e)) r) = Ok st').
    { intros st3 vb v3 S3 HS. destruct (alloc st3 vb) as [st4 r] eqn:Ha.
      apply keeps_alloc in Ha as (K4 & E4 & P4 & C4 & L4).
      assert (D4 : deref st4 r = vb).
      { unfold deref. rewrite C4, L4, app_nth2 by lia. now rewrite Nat.sub_diag. }
      rewrite D4, HS. cbn [bind]. cbv zeta. cbn [with_cells ts_elts]. rewrite E4.
      pose proof (shape_get st3 k S3) as X. rewrite E0 in X.
      destruct (dget streq (ts_elts st3) k) as [e3|] eqn:E3; [|discriminate].
      apply finish_noexp with e3; cbn [with_cells ts_elts]; [now rewrite E4|..].
      - pose proof (noexp _ _ E0) as X0. cbn in X0. cbn [option_map] in X. injection X as _ _ _ _ X. congruence.
      - intros be Hbe. pose proof (shape_get st3 (t_base e) S3) as Y. rewrite Hbe in Y. exact (noexp _ _ Y). }
    pose proof (shape_get st2 (t_base e) S2) as GB.
    inversion T as [m1 k1 e1 b vb v1 He1 Hb1 Ho1 Ht1 Hs1|k1 e1 vb v1 He1 Hb1 Hd1 Hs1]; subst;
      rewrite E0 in He1; injection He1 as <-; cbn [bare t_base t_order] in *.
    - rewrite Hb1 in GB. destruct (dget streq (ts_elts st2) (t_base e)) as [b2|] eqn:Hb2; [|discriminate].
      cbn [option_map] in GB. injection GB as ->. cbn [bare t_order] in Ho1. rewrite Ho1.
      assert (I2 : inv force st2).
      { split; [exact S2|]. intros Ff k' e' He' Hs'. destruct (streq_spec k' k) as [->|N].
        - exfalso. rewrite G2k in He'. injection He' as <-. cbn in Hs'.
          destruct (Hgood Ff k e He Hs') as (e1 & r & v' & X1 & X2 & X3 & _). rewrite He in X1. injection X1 as <-.
          destruct Hk as [X|X]; congruence.
        - rewrite G2 in He' by exact N. eapply good_keep; [exact K2|eapply Hgood; eassumption|now apply G2]. }
      assert (P2 : force = false -> forall k' e' m' v', dget streq (ts_elts st2) k' = Some e' -> t_key e' <> None ->
         tkd m' k' v' -> (m' <= m)%nat -> good st2 k').
      { intros Ff k' e' m' v' He' Hk' T' Hm'. destruct (streq_spec k' k) as [->|N].
        - pose proof (tkd_det _ _ _ T _ _ T'). lia.
        - rewrite G2 in He' by exact N. eapply good_keep; [exact K2| |now apply G2].
          eapply HP; try eassumption. lia. }
      destruct (IH f st2 (t_base e) vb I2 Ht1 ltac:(lia) P2) as (st3 & R3). rewrite R3. cbn [bind].
      destruct (run_ok force f st2 st3 (t_base e) I2 R3) as ([S3 SH3] & K3 & G3 & GB3 & NG3).
      assert (GG : good st3 (t_base e)).
      { destruct force eqn:Ff; [apply (GB3 b2 Hb2); now right|].
        destruct (t_key b2) as [kb|] eqn:Hkb; [|apply (GB3 b2 Hb2); now left].
        apply G3. eapply P2; [reflexivity|exact Hb2|congruence|exact Ht1|lia]. }
      destruct GG as (b3 & s & vb' & X1 & X2 & X3 & X4 & X5 & X6 & X7).
      rewrite X1, X2. cbn [bind]. unfold kcopy. rewrite X4, X6.
      pose proof (tk_det _ _ X7 _ (tkd_tk _ _ _ Ht1)) as ->. apply FIN with v; assumption.
    - replace (match dget streq (ts_elts st2) (t_base e) with
               | Some b => if order_leb (t_order b) (t_order e) then _ else Ok (alloc st2 dk)
               | None => Ok (alloc st2 dk)
               end) with (Ok (alloc st2 dk)).
      2:{ destruct (dget streq (ts_elts st2) (t_base e)) as [b2|]; [|reflexivity].
          cbn [option_map] in GB. specialize (Hb1 _ GB). cbn [bare t_order] in Hb1. now rewrite Hb1. }
      cbn [bind]. rewrite Hdk in Hd1. injection Hd1 as <-. apply FIN with v; assumption.
  Qed.
End Tailor.
