(** Proofs about escape/unescape of collation.py. *)
From Verif Require Import Py PyFacts M_UnicodeSets M_Collation.
Open Scope N_scope.

Definition esc1 (k : N) : pystr :=
  if inchars k escs then [92; k] else if N.eqb k 39 then [39; 39] else [k].
Definition E (s : pystr) : pystr := flat_map esc1 s.

Lemma E_cons c s : E (c :: s) = esc1 c ++ E s.
Proof. reflexivity. Qed.

Lemma escape_false isM s : coll_escape isM false s = E s.
Proof.
  unfold coll_escape. generalize false at 2. induction s as [|k s IH]; intros lb; [reflexivity|].
  cbn [coll_escape_aux E flat_map]. unfold esc1 at 1.
  destruct (inchars k escs); [cbn; now rewrite IH|].
  destruct (k =? 39) eqn:E39; [apply N.eqb_eq in E39 as ->; cbn; now rewrite IH|].
  destruct (_ && _)%bool; [cbn; now rewrite IH|].
  destruct (_ || _)%bool; cbn; now rewrite IH.
Qed.

Ltac nodigit c := destruct c as [|?p]; [reflexivity|];
  repeat (try reflexivity; match goal with p : positive |- _ => destruct p as [p|p|] end; try reflexivity; try congruence).

Lemma uat_no92 c t : c <> 92 -> uhexesc_at (c :: t) = None.
Proof. intros H. unfold uhexesc_at. nodigit c. Qed.
Lemma uat_92 c t : c <> 117 -> c <> 85 -> uhexesc_at (92 :: c :: t) = None.
Proof. intros H1 H2. unfold uhexesc_at. nodigit c. Qed.
Lemma uat_U t : uhexesc_at (92 :: 85 :: t) = match take_uhex 8 t with Some h => Some (10%nat, hexnum h) | None => None end.
Proof. reflexivity. Qed.
Lemma uat_u t : uhexesc_at (92 :: 117 :: t) = match take_uhex 4 t with Some h => Some (6%nat, hexnum h) | None => None end.
Proof. reflexivity. Qed.

Lemma uhexsub_none k c t : uhexesc_at (c :: t) = None ->
  uhexsub k 0 (c :: t) = do b <- uhexsub k 0 t; Ok (c :: b).
Proof. intros H. cbn [uhexsub]. destruct k; [reflexivity|]. now rewrite H. Qed.
Lemma uhexsub_0 c t : uhexsub 0 0 (c :: t) = do b <- uhexsub 0 0 t; Ok (c :: b).
Proof. reflexivity. Qed.
Lemma uhexsub_skip k p t : uhexsub k (length p) (p ++ t) = uhexsub k 0 t.
Proof. induction p as [|c p IH]; cbn; [destruct t; reflexivity|exact IH]. Qed.

Lemma upper_hex_cases c : is_upper_hex c = true -> (48 <= c <= 57) \/ (65 <= c <= 70).
Proof.
  unfold is_upper_hex, is_digit. intros H.
  repeat (apply orb_prop in H; destruct H as [H|H]);
    apply andb_prop in H as [H1 H2]; apply N.leb_le in H1, H2; lia.
Qed.
Lemma escs_cases c : inchars c escs = true ->
  33 <= c <= 47 \/ 58 <= c <= 64 \/ 91 <= c <= 96 \/ 123 <= c <= 126.
Proof.
  intros H. apply inchars_spec in H. cbn in H.
  repeat destruct H as [<-|H]; try lia.
Qed.
Lemma escs_not c : (48 <= c <= 57) \/ (65 <= c <= 90) \/ (97 <= c <= 122) -> inchars c escs = false.
Proof. intros H. destruct (inchars c escs) eqn:Q; [|reflexivity]. apply escs_cases in Q. lia. Qed.

Lemma esc1_cases c :
  (inchars c escs = true /\ esc1 c = [92; c]) \/
  (c = 39 /\ esc1 c = [39; 39]) \/
  (inchars c escs = false /\ c <> 39 /\ c <> 92 /\ esc1 c = [c]).
Proof.
  unfold esc1. destruct (inchars c escs) eqn:Q; [auto|].
  destruct (N.eqb_spec c 39) as [->|Hn]; [auto|]. right; right. repeat split; auto.
  intros ->. discriminate.
Qed.
Lemma esc1_alnum c : (48 <= c <= 57) \/ (65 <= c <= 90) \/ (97 <= c <= 122) -> esc1 c = [c].
Proof.
  intros H. unfold esc1. rewrite escs_not by exact H.
  replace (c =? 39) with false by (symmetry; apply N.eqb_neq; lia). reflexivity.
Qed.
Lemma E_head s c t : E s = c :: t -> c <> 92 -> c <> 39 -> exists s', s = c :: s' /\ t = E s'.
Proof.
  destruct s as [|k s]; [discriminate|]. rewrite E_cons.
  destruct (esc1_cases k) as [[_ ->]|[[-> ->]|(_ & _ & _ & ->)]]; cbn [app]; intros H H1 H2.
  - injection H as <- _. congruence.
  - injection H as <- _. congruence.
  - injection H as -> <-. eauto.
Qed.

Lemma take_uhex_E n : forall s h, take_uhex n (E s) = Some h ->
  exists t, s = h ++ t /\ length h = n /\ forallb is_upper_hex h = true /\ E s = h ++ E t.
Proof.
  induction n as [|n IH]; intros s h H; cbn [take_uhex] in H.
  - injection H as <-. exists s. auto.
  - destruct (E s) as [|c u] eqn:Es; [discriminate|].
    destruct (is_upper_hex c) eqn:Hc; [|discriminate].
    destruct (take_uhex n u) as [h'|] eqn:E'; [|discriminate]. injection H as <-.
    pose proof (upper_hex_cases c Hc).
    apply E_head in Es as (s' & -> & ->); [|lia|lia].
    apply IH in E' as (t & -> & Hl & Hf & He). exists t. cbn. rewrite Hl, Hc, Hf, He. auto.
Qed.
Lemma take_uhex_app n h t : length h = n -> forallb is_upper_hex h = true -> take_uhex n (h ++ t) = Some h.
Proof.
  revert h; induction n as [|n IH]; intros [|c h] Hl Hh; cbn in *; try discriminate; [reflexivity|].
  apply andb_prop in Hh as [Hc Hh]. rewrite Hc, (IH h); auto.
Qed.
Lemma E_upper h t : forallb is_upper_hex h = true -> E (h ++ t) = h ++ E t.
Proof.
  induction h as [|c h IH]; intros H; [reflexivity|]. cbn in H. apply andb_prop in H as [Hc H].
  cbn [app]. rewrite E_cons, IH by exact H.
  rewrite esc1_alnum; [reflexivity|]. apply upper_hex_cases in Hc. lia.
Qed.

Definition uhex_tail (q : pystr) : Prop :=
  exists h t, forallb is_upper_hex h = true /\
    ((q = 85 :: h ++ t /\ length h = 8%nat) \/ (q = 117 :: h ++ t /\ length h = 4%nat)).

Lemma uat_E s : 
  (uhexesc_at (92 :: E s) = None /\ ~ uhex_tail s) \/
  (exists c h t, s = c :: h ++ t /\ E s = (c :: h) ++ E t /\ (4 <= length h)%nat /\
     uhexesc_at (92 :: E s) = Some (length (92 :: c :: h), hexnum h)).
Proof.
  destruct s as [|c s].
  { left. split; [reflexivity|]. intros (h & t & _ & [[H _]|[H _]]); discriminate. }
  destruct (N.eq_dec c 85) as [->|H1].
  { rewrite E_cons. change (esc1 85) with [85]. cbn [app]. rewrite uat_U.
    destruct (take_uhex 8 (E s)) as [h|] eqn:Q.
    - right. apply take_uhex_E in Q as (t & -> & Hl & Hf & He). exists 85, h, t.
      rewrite He. repeat split; [lia|]. cbn [length]. now rewrite Hl.
    - left. split; [reflexivity|]. intros (h & t & Hh & [[H Hl]|[H _]]); [|discriminate].
      injection H as ->. rewrite E_upper, take_uhex_app in Q by assumption. discriminate. }
  destruct (N.eq_dec c 117) as [->|H2].
  { rewrite E_cons. change (esc1 117) with [117]. cbn [app]. rewrite uat_u.
    destruct (take_uhex 4 (E s)) as [h|] eqn:Q.
    - right. apply take_uhex_E in Q as (t & -> & Hl & Hf & He). exists 117, h, t.
      rewrite He. repeat split; [lia|]. cbn [length]. now rewrite Hl.
    - left. split; [reflexivity|]. intros (h & t & Hh & [[H _]|[H Hl]]); [discriminate|].
      injection H as ->. rewrite E_upper, take_uhex_app in Q by assumption. discriminate. }
  left. split.
  - rewrite E_cons. destruct (esc1_cases c) as [[_ ->]|[[-> ->]|(_ & _ & _ & ->)]]; cbn [app];
      apply uat_92; congruence.
  - intros (h & t & _ & [[H _]|[H _]]); injection H; intros; congruence.
Qed.

(** unbackslash and unquote on encoded text *)
Lemma unbs_esc c r : c <> 10 -> unbackslash (92 :: c :: r) = c :: unbackslash r.
Proof. intros H. cbn [unbackslash]. apply N.eqb_neq in H as ->. reflexivity. Qed.
Lemma unbs_lit c r : c <> 92 -> unbackslash (c :: r) = c :: unbackslash r.
Proof. intros H. cbn [unbackslash]. nodigit c. Qed.
Lemma unq_lit c r : c <> 39 -> unquote (c :: r) = c :: unquote r.
Proof. intros H. cbn [unquote]. nodigit c. Qed.
Lemma unq_q r : unquote (39 :: 39 :: r) = 39 :: unquote r.
Proof. reflexivity. Qed.
Lemma unq_single c r : c <> 39 -> unquote (39 :: c :: r) = 39 :: unquote (c :: r).
Proof. intros H. cbn [unquote]. apply N.eqb_neq in H as ->. reflexivity. Qed.

Lemma unq_len_aux n : forall w, (length w <= n)%nat ->
  (forall x, length (unquote (x :: w)) <= S (length (unquote w)))%nat /\
  (length (unquote w) <= length (unquote (39%N :: w)))%nat.
Proof.
  induction n as [|n IH]; intros w Hw.
  - destruct w; [|cbn in Hw; lia]. split; [|cbn; lia]. intros x.
    destruct (N.eq_dec x 39) as [->|Hx]; [cbn; lia|rewrite unq_lit by exact Hx; cbn; lia].
  - destruct w as [|c w].
    + split; [|cbn; lia]. intros x.
      destruct (N.eq_dec x 39) as [->|Hx]; [cbn; lia|rewrite unq_lit by exact Hx; cbn; lia].
    + destruct (IH w) as [A B]; [cbn in Hw; lia|].
      destruct (N.eq_dec c 39) as [->|Hc].
      * split.
        -- intros x. destruct (N.eq_dec x 39) as [->|Hx].
           ++ rewrite unq_q. cbn [length]. lia.
           ++ rewrite unq_lit by exact Hx. cbn [length]. lia.
        -- rewrite unq_q. cbn [length]. specialize (A 39). lia.
      * split.
        -- intros x. destruct (N.eq_dec x 39) as [->|Hx].
           ++ rewrite unq_single by exact Hc. cbn [length]. lia.
           ++ rewrite (unq_lit x) by exact Hx. cbn [length]. lia.
        -- rewrite unq_single by exact Hc. cbn [length]. lia.
Qed.
Lemma unq_len x w : (length (unquote (x :: w)) <= S (length (unquote w)))%nat.
Proof. apply (unq_len_aux (length w)). lia. Qed.

Definition occurs (s : pystr) : Prop := exists p q, s = p ++ 92 :: q /\ uhex_tail q.

Lemma occurs_cons c s : occurs (c :: s) <-> (c = 92 /\ uhex_tail s) \/ occurs s.
Proof.
  split.
  - intros (p & q & E & H). destruct p as [|x p]; cbn in E; injection E as -> ->; [auto|].
    right. now exists p, q.
  - intros [[-> H]|(p & q & -> & H)].
    + now exists [], s.
    + now exists (c :: p), q.
Qed.

Lemma decode_id s : ~ occurs s -> forall k,
  uhexsub k 0 (E s) = Ok (E s) /\ unquote (unbackslash (E s)) = s.
Proof.
  induction s as [|c s IH]; intros H k; [split; reflexivity|].
  assert (Ho : ~ occurs s) by (intros X; apply H; apply occurs_cons; auto).
  destruct (IH Ho k) as [A B].
  assert (C : uhexesc_at (92 :: E s) = None \/ c <> 92).
  { destruct (N.eq_dec c 92) as [->|Hc]; [left|now right].
    destruct (uat_E s) as [[Q _]|(c & h & t & -> & _ & Hl & Q)]; [exact Q|].
    exfalso. apply H. apply occurs_cons. left. split; [reflexivity|].
    destruct (uat_E (c :: h ++ t)) as [[Q' _]|X]; [rewrite Q' in Q; discriminate|].
    clear - Q. unfold uhex_tail.
    destruct (N.eq_dec c 85) as [->|H1].
    { rewrite E_cons in Q. change (esc1 85) with [85] in Q. cbn [app] in Q. rewrite uat_U in Q.
      destruct (take_uhex 8 (E (h ++ t))) as [h'|] eqn:Q'; [|discriminate].
      apply take_uhex_E in Q' as (t' & Et & Hl & Hf & _). exists h', t'. rewrite Et. auto. }
    destruct (N.eq_dec c 117) as [->|H2].
    { rewrite E_cons in Q. change (esc1 117) with [117] in Q. cbn [app] in Q. rewrite uat_u in Q.
      destruct (take_uhex 4 (E (h ++ t))) as [h'|] eqn:Q'; [|discriminate].
      apply take_uhex_E in Q' as (t' & Et & Hl & Hf & _). exists h', t'. rewrite Et. auto. }
    exfalso. rewrite E_cons in Q. destruct (esc1_cases c) as [[_ R]|[[-> R]|(_ & _ & _ & R)]];
      try rewrite R in Q; cbn [app] in Q; rewrite uat_92 in Q by congruence; discriminate. }
  rewrite E_cons. destruct (esc1_cases c) as [[Hc ->]|[[-> ->]|(Hc & Hq & Hb & ->)]]; cbn [app].
  - pose proof (escs_cases c Hc) as Hr. rewrite uhexsub_none by (apply uat_92; lia).
    rewrite uhexsub_none by (destruct C as [C|C]; [|now apply uat_no92];
      destruct (N.eq_dec c 92) as [->|Hn]; [exact C|now apply uat_no92]).
    rewrite A. split; [reflexivity|]. rewrite unbs_esc by lia.
    destruct (N.eq_dec c 39) as [->|Hn]; [discriminate|]. rewrite unq_lit, B by exact Hn. reflexivity.
  - rewrite !uhexsub_none by (apply uat_no92; discriminate). rewrite A. split; [reflexivity|].
    rewrite !unbs_lit by discriminate. now rewrite unq_q, B.
  - rewrite uhexsub_none by (now apply uat_no92). rewrite A. split; [reflexivity|].
    rewrite unbs_lit by exact Hb. now rewrite unq_lit, B by exact Hq.
Qed.

Lemma decode_short n : forall s k r, (length s <= n)%nat -> uhexsub k 0 (E s) = Ok r ->
  (length (unquote (unbackslash r)) <= length s)%nat /\
  (k <> O -> occurs s -> length (unquote (unbackslash r)) < length s)%nat.
Proof.
  induction n as [|n IH]; intros s k r Hs Hr.
  - destruct s; [|cbn in Hs; lia]. cbn in Hr. injection Hr as <-. split; [cbn; lia|].
    intros _ (p & q & X & _). destruct p; discriminate.
  - destruct s as [|c s].
    { cbn in Hr. injection Hr as <-. split; [cbn; lia|].
      intros _ (p & q & X & _). destruct p; discriminate. }
    cbn [length] in Hs. rewrite E_cons in Hr.
    destruct (esc1_cases c) as [[Hc Hq]|[[-> Hq]|(Hc & Hq1 & Hb & Hq)]]; rewrite Hq in Hr; cbn [app] in Hr.
    + pose proof (escs_cases c Hc) as Hrg.
      rewrite uhexsub_none in Hr by (apply uat_92; lia).
      destruct (uhexsub k 0 (c :: E s)) as [r1|] eqn:E1; [|discriminate]. cbn in Hr. injection Hr as <-.
      assert (Plain : (uhexesc_at (c :: E s) = None \/ k = O) ->
        (length (unquote (unbackslash (92%N :: r1))) <= length (c :: s))%nat /\
        (k <> O -> occurs s -> length (unquote (unbackslash (92%N :: r1))) < length (c :: s))%nat).
      { intros Hn.
        assert (E2 : uhexsub k 0 (c :: E s) = do b <- uhexsub k 0 (E s); Ok (c :: b)).
        { destruct Hn as [Hn| ->]; [now apply uhexsub_none|apply uhexsub_0]. }
        rewrite E2 in E1. destruct (uhexsub k 0 (E s)) as [r2|] eqn:E3; [|discriminate].
        cbn in E1. injection E1 as <-. apply IH in E3 as [A B]; [|lia].
        rewrite unbs_esc by lia.
        pose proof (unq_len c (unbackslash r2)). cbn [length]. split; [lia|].
        intros Hk Ho. specialize (B Hk Ho). lia. }
      destruct (N.eq_dec c 92) as [->|Hn].
      * destruct (uat_E s) as [[Q Hnt]|(d & h & t & -> & Es & Hl & Q)].
        -- destruct (Plain (or_introl Q)) as [A B]. split; [exact A|].
           intros Hk Ho. apply occurs_cons in Ho as [[_ Ho]|Ho]; [contradiction|auto].
        -- destruct k as [|k].
           { destruct (Plain (or_intror eq_refl)) as [A _]. split; [exact A|congruence]. }
           cbn [uhexsub] in E1. rewrite Q in E1.
           destruct (pychr (hexnum h)) as [x|]; [|discriminate]. cbn [bind] in E1.
           replace (length (92%N :: d :: h) - 1)%nat with (length (d :: h)) in E1 by (cbn; lia).
           rewrite Es, uhexsub_skip in E1.
           destruct (uhexsub k 0 (E t)) as [r2|] eqn:E3; [|discriminate]. cbn in E1. injection E1 as <-.
           cbn [length] in Hs. rewrite app_length in Hs.
           apply IH in E3 as [A _]; [|lia].
           assert (L : (length (unquote (unbackslash (92%N :: x :: r2))) <= 2 + length t)%nat).
           { destruct (N.eq_dec x 10) as [->|Hx].
             - cbn [unbackslash]. change (10 =? 10) with true. cbn iota.
               pose proof (unq_len 92 (10 :: unbackslash r2)). pose proof (unq_len 10 (unbackslash r2)).
               lia.
             - rewrite unbs_esc by exact Hx. pose proof (unq_len x (unbackslash r2)). lia. }
           cbn [length]. rewrite app_length. split; lia.
      * destruct (Plain (or_introl (uat_no92 c (E s) Hn))) as [A B]. split; [exact A|].
        intros Hk Ho. apply occurs_cons in Ho as [[Hc' _]|Ho]; [congruence|auto].
    + rewrite !uhexsub_none in Hr by (apply uat_no92; discriminate).
      destruct (uhexsub k 0 (E s)) as [r2|] eqn:E3; [|discriminate]. cbn in Hr. injection Hr as <-.
      apply IH in E3 as [A B]; [|lia]. rewrite !unbs_lit by discriminate. rewrite unq_q. cbn [length].
      split; [lia|]. intros Hk Ho. apply occurs_cons in Ho as [[Hc' _]|Ho]; [discriminate|].
      specialize (B Hk Ho). lia.
    + rewrite uhexsub_none in Hr by (now apply uat_no92).
      destruct (uhexsub k 0 (E s)) as [r2|] eqn:E3; [|discriminate]. cbn in Hr. injection Hr as <-.
      apply IH in E3 as [A B]; [|lia]. rewrite unbs_lit by exact Hb. rewrite unq_lit by exact Hq1. cbn [length].
      split; [lia|]. intros Hk Ho. apply occurs_cons in Ho as [[Hc' _]|Ho]; [congruence|].
      specialize (B Hk Ho). lia.
Qed.

Lemma escape_roundtrip isM s : coll_unescape (coll_escape isM false s) = Ok s <-> ~ occurs s.
Proof.
  rewrite escape_false. unfold coll_unescape. split.
  - intros H Ho. destruct (uhexsub 2 0 (E s)) as [r|] eqn:Q; [|discriminate]. cbn in H. injection H as H.
    destruct (decode_short (length s) s 2 r (le_n _) Q) as [_ B].
    specialize (B ltac:(discriminate) Ho). rewrite H in B. lia.
  - intros H. destruct (decode_id s H 2) as [A B]. rewrite A. cbn. now rewrite B.
Qed.
