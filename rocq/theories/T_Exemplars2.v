(** C40: the splitting of clusters ends, and what it leaves. *)
From Coq Require Import String.
From Verif Require Import Py PyFacts M_UnicodeSets P_UnicodeSets M_Exemplars T_Exemplars.
Local Open Scope list_scope.
Local Open Scope nat_scope.

Lemma in_cdel d e x : NoDup (dkeys d) -> In x (dkeys (cdel d e)) <-> In x (dkeys d) /\ x <> e.
Proof.
  intros ND. unfold cdel. rewrite <- !(dget_Some_iff _ ex_eqb_spec).
  rewrite (dget_ddel _ ex_eqb_spec) by exact ND. destruct (ex_eqb_spec x e) as [->|H].
  - split; [intros [v E]; discriminate|intuition congruence].
  - intuition.
Qed.
Lemma cadd_NoDup d e n : NoDup (dkeys d) -> NoDup (dkeys (cadd d e n)).
Proof. apply dset_NoDup. exact ex_eqb_spec. Qed.
Lemma cdel_NoDup d e : NoDup (dkeys d) -> NoDup (dkeys (cdel d e)).
Proof. apply ddel_NoDup. Qed.

(** ** Subsequences *)
Inductive subseq {A} : list A -> list A -> Prop :=
| ss_nil l : subseq [] l
| ss_keep x l m : subseq l m -> subseq (x :: l) (x :: m)
| ss_drop x l m : subseq l m -> subseq l (x :: m).
Lemma subseq_refl {A} (l : list A) : subseq l l.
Proof. induction l; constructor; assumption. Qed.
Lemma subseq_trans {A} (a b c : list A) : subseq a b -> subseq b c -> subseq a c.
Proof.
  intros H1 H2. revert a H1. induction H2; intros a H1.
  - inversion H1; subst. constructor.
  - inversion H1; subst; constructor; auto.
  - constructor. auto.
Qed.
Lemma subseq_in {A} (a b : list A) x : subseq a b -> In x a -> In x b.
Proof. induction 1; cbn; intuition. Qed.
Lemma drop_nth_subseq i : forall t, subseq (drop_nth i t) t.
Proof.
  unfold drop_nth. induction i as [|i IH]; intros [|c t]; cbn [firstn skipn app].
  - constructor.
  - constructor. apply subseq_refl.
  - constructor.
  - constructor. apply IH.
Qed.
Lemma drop_nth_length i : forall t, i < length t -> S (length (drop_nth i t)) = length t.
Proof.
  intros t Hi. unfold drop_nth. rewrite app_length, firstn_length, skipn_length. lia.
Qed.
Lemma drop_nth_in i : forall t m x, nth_error t i = Some m -> In x t -> x = m \/ In x (drop_nth i t).
Proof.
  unfold drop_nth. induction i as [|i IH]; intros [|c t] m x E Hin; cbn in *; try discriminate.
  - injection E as ->. destruct Hin as [->|Hin]; auto.
  - destruct Hin as [->|Hin]; [now right; left|]. destruct (IH t m x E Hin) as [->|H]; auto.
Qed.

(** ** One split of a cluster at some of its places *)
Section Split.
  Definition split_at (e : exemplar) (idxs : list nat) (cl : counter) : counter :=
    fold_left (split_exemplar e (cget cl e)) idxs cl.
  Definition valid (e : exemplar) (idxs : list nat) : Prop :=
    fst e <> [] /\ forall i, In i idxs -> i < length (snd e).

  Lemma split1_keys e n i cl m : fst e <> [] -> nth_error (snd e) i = Some m -> NoDup (dkeys cl) ->
    NoDup (dkeys (split_exemplar e n cl i)) /\
    forall x, In x (dkeys (split_exemplar e n cl i)) <->
      (In x (dkeys cl) /\ x <> e) \/ x = ([], [m]) \/ x = (fst e, drop_nth i (snd e)).
  Proof.
    intros Hb E ND. unfold split_exemplar. rewrite E.
    assert (ND2 : NoDup (dkeys (cadd (cadd cl ([], [m]) n) (fst e, drop_nth i (snd e)) n))) by (now apply cadd_NoDup, cadd_NoDup).
    split; [now apply cdel_NoDup|]. intros x. rewrite in_cdel by exact ND2. rewrite !in_cadd.
    assert (N1 : ([], [m]) <> e) by (destruct e; cbn in *; congruence).
    assert (N2 : (fst e, drop_nth i (snd e)) <> e).
    { intros H. assert (HL : length (drop_nth i (snd e)) = length (snd e)) by (now rewrite <- H at 2).
      assert (i < length (snd e)) by (apply nth_error_Some; congruence).
      rewrite <- (drop_nth_length i (snd e)) in HL by assumption. lia. }
    split; [tauto|]. intros [[H1 H2]|[->| ->]]; tauto.
  Qed.

  Lemma splits_keys e n : forall idxs cl, valid e idxs -> NoDup (dkeys cl) ->
    let cl' := fold_left (split_exemplar e n) idxs cl in
    NoDup (dkeys cl') /\ forall x, In x (dkeys cl') <->
      (In x (dkeys cl) /\ (idxs = [] \/ x <> e))
      \/ exists i m, In i idxs /\ nth_error (snd e) i = Some m /\ (x = ([], [m]) \/ x = (fst e, drop_nth i (snd e))).
  Proof.
    induction idxs as [|i idxs IH]; intros cl [Hb Hv] ND; cbn zeta; cbn [fold_left].
    - split; [exact ND|]. intros x. split; [intros H; left; split; [exact H|now left]|].
      intros [[H _]|(i & m & [] & _)]. exact H.
    - assert (Hi : i < length (snd e)) by (apply Hv; now left).
      destruct (nth_error (snd e) i) as [m|] eqn:Em; [|apply nth_error_None in Em; lia].
      destruct (split1_keys e n i cl m Hb Em ND) as [ND1 K1].
      destruct (IH (split_exemplar e n cl i)) as [ND2 K2]; [split; [exact Hb|]; intros j Hj; apply Hv; now right|exact ND1|].
      cbn zeta in ND2, K2. split; [exact ND2|]. intros x. rewrite K2, K1.
      assert (N1 : ([], [m]) <> e) by (destruct e; cbn in *; congruence).
      assert (N2 : (fst e, drop_nth i (snd e)) <> e).
      { intros H. assert (HL : length (drop_nth i (snd e)) = length (snd e)) by (now rewrite <- H at 2).
        rewrite <- (drop_nth_length i (snd e)) in HL by assumption. lia. }
      split.
      + intros [[[[H1 H2]|[H1|H1]] _]|(j & m' & Hj & R)].
        * left. split; [exact H1|now right].
        * right. exists i, m. split; [now left|]. auto.
        * right. exists i, m. split; [now left|]. auto.
        * right. exists j, m'. split; [now right|exact R].
      + intros [[H1 [H2|H2]]|(j & m' & [<-|Hj] & E' & R)].
        * discriminate.
        * left. split; [left; auto|now right].
        * left. assert (m' = m) by congruence. subst m'. split; [destruct R; auto|].
          right. destruct R as [->| ->]; assumption.
        * right. exists j, m'. auto.
  Qed.

  (** One step of the splitting: a cluster that is there, with a base, is split at some places. *)
  Definition step (cl cl' : counter) : Prop :=
    exists e idxs, In e (dkeys cl) /\ valid e idxs /\ idxs <> [] /\ cl' = split_at e idxs cl.
  Inductive steps : counter -> counter -> Prop :=
  | st_refl cl : steps cl cl
  | st_more cl1 cl2 cl3 : step cl1 cl2 -> steps cl2 cl3 -> steps cl1 cl3.
  Lemma steps_trans a b c : steps a b -> steps b c -> steps a c.
  Proof. induction 1; intros H'; [exact H'|]. econstructor; eauto. Qed.
  Lemma step_NoDup a b : step a b -> NoDup (dkeys a) -> NoDup (dkeys b).
  Proof. intros (e & idxs & _ & V & _ & ->) ND. now apply splits_keys. Qed.
  Lemma steps_NoDup a b : steps a b -> NoDup (dkeys a) -> NoDup (dkeys b).
  Proof. induction 1; intros ND; [exact ND|]. apply IHsteps. eapply step_NoDup; eauto. Qed.

  (** *** A measure that falls *)
  Fixpoint W (n : nat) : nat := match n with O => 0 | S k => S (S k * W k) end.
  Definition weight (e : exemplar) : nat := match fst e with [] => 0 | _ => W (length (snd e)) end.
  Definition sumw (l : list exemplar) : nat := fold_right Nat.add 0 (map weight l).
  Definition measure (cl : counter) : nat := sumw (dkeys cl).

  Lemma sumw_app a b : sumw (a ++ b) = sumw a + sumw b.
  Proof. unfold sumw. induction a; cbn in *; lia. Qed.
  Lemma sumw_incl l : NoDup l -> forall m, incl l m -> sumw l <= sumw m.
  Proof.
    induction 1 as [|x l Hx ND IH]; intros m Hi; [cbn; lia|].
    assert (Hin : In x m) by (apply Hi; now left).
    apply in_split in Hin. destruct Hin as (m1 & m2 & ->).
    assert (Hl : incl l (m1 ++ m2)).
    { intros y Hy. assert (H : In y (m1 ++ x :: m2)) by (apply Hi; now right).
      apply in_app_iff in H. apply in_app_iff. destruct H as [H|[->|H]]; [auto|contradiction|auto]. }
    specialize (IH _ Hl). rewrite sumw_app in *. unfold sumw in *. cbn in *. lia.
  Qed.
  Lemma sumw_const {A} (f : A -> exemplar) n l : (forall x, In x l -> weight (f x) <= n) -> sumw (map f l) <= length l * n.
  Proof.
    induction l as [|x l IH]; intros H; cbn; [lia|]. unfold sumw in *. cbn.
    assert (weight (f x) <= n) by (apply H; now left).
    assert (fold_right Nat.add 0 (map weight (map f l)) <= length l * n) by (apply IH; intros; apply H; now right). lia.
  Qed.

  Lemma step_measure a b : NoDup (dkeys a) -> step a b -> measure b < measure a.
  Proof.
    intros ND (e & idxs & Hin & V & Hne & ->).
    destruct (splits_keys e (cget a e) idxs a V ND) as [ND' K]. cbn zeta in ND', K.
    fold (split_at e idxs a) in ND', K. destruct V as [Hb Hv].
    assert (HL : exists k, length (snd e) = S k).
    { destruct idxs as [|i idxs]; [congruence|]. assert (i < length (snd e)) by (apply Hv; now left).
      destruct (length (snd e)); [lia|eauto]. }
    destruct HL as [k HL].
    apply in_split in Hin. destruct Hin as (l1 & l2 & El).
    set (cand := (l1 ++ l2) ++ map (fun m => ([], [m])) (snd e) ++ map (fun i => (fst e, drop_nth i (snd e))) (seq 0 (length (snd e)))).
    assert (Hi : incl (dkeys (split_at e idxs a)) cand).
    { intros x Hx. apply K in Hx. unfold cand. rewrite !in_app_iff. destruct Hx as [[Hx [H|H]]|(i & m & Hi & Em & [->| ->])].
      - contradiction.
      - rewrite El in Hx. apply in_app_iff in Hx. destruct Hx as [Hx|[Hx|Hx]]; [auto|congruence|auto].
      - right. left. apply in_map_iff. exists m. split; [reflexivity|]. eapply nth_error_In; eauto.
      - right. right. apply in_map_iff. exists i. split; [reflexivity|]. apply in_seq. specialize (Hv i Hi). lia. }
    pose proof (sumw_incl _ ND' _ Hi) as HS. unfold measure. unfold cand in HS. rewrite El. rewrite !sumw_app in *.
    assert (H1 : sumw (map (fun m => ([], [m])) (snd e)) <= length (snd e) * 0) by (apply sumw_const; intros; cbn; lia).
    assert (H2 : sumw (map (fun i => (fst e, drop_nth i (snd e))) (seq 0 (length (snd e)))) <= length (seq 0 (length (snd e))) * W k).
    { apply sumw_const. intros i Hi'. apply in_seq in Hi'. unfold weight. cbn [fst snd].
      destruct (fst e); [lia|]. assert (HX : S (length (drop_nth i (snd e))) = length (snd e)) by (apply drop_nth_length; lia).
      replace (length (drop_nth i (snd e))) with k by lia. lia. }
    rewrite seq_length, HL in H2. rewrite HL in H1, HS.
    assert (H3 : sumw (e :: l2) = S (S k * W k) + sumw l2).
    { unfold sumw. cbn [map fold_right]. f_equal. unfold weight. destruct (fst e); [congruence|]. now rewrite HL. }
    rewrite H3. lia.
  Qed.
  Lemma steps_measure a b : NoDup (dkeys a) -> steps a b -> measure b <= measure a.
  Proof.
    intros ND H. induction H as [|a b c H H' IH]; [lia|].
    pose proof (step_measure a b ND H). specialize (IH (step_NoDup _ _ H ND)). lia.
  Qed.
End Split.

(** ** The passes *)
Definition valid_rule (rule : list N -> exemplar -> list N * list nat) : Prop :=
  forall asm e i, In i (snd (rule asm e)) -> i < length (snd e).

(** What a pass does to each cluster it comes to. *)
Definition pass_step (rule : list N -> exemplar -> list N * list nat) (st : counter * list N * bool) (e : exemplar) :=
  let '(cl, asm, need) := st in
  let count := cget cl e in
  let (asm', idxs) := rule asm e in
  match fst e with
  | [] => (cl, asm', need)
  | _ :: _ => (fold_left (split_exemplar e count) idxs cl, asm',
               (need || match idxs with [] => false | _ => true end)%bool)
  end.

Lemma pass_fold rule (Hr : valid_rule rule) : forall es cl asm need cl' asm' need',
  NoDup es -> incl es (dkeys cl) -> NoDup (dkeys cl) ->
  fold_left (pass_step rule) es (cl, asm, need) = (cl', asm', need') ->
  steps cl cl'
  /\ (need' = false -> need = false /\ cl' = cl
      /\ forall e, In e es -> fst e <> [] -> exists asm0, snd (rule asm0 e) = [])
  /\ (need' = true -> need = true \/ measure cl' < measure cl).
Proof.
  induction es as [|e es IH]; intros cl asm need cl' asm' need' NDe Hi ND E; cbn [fold_left] in E.
  - injection E as <- <- <-. split; [constructor|]. split; [|auto]. intros H. repeat split; auto. intros e [].
  - inversion NDe as [|? ? He NDe']; subst.
    assert (Hin : In e (dkeys cl)) by (apply Hi; now left).
    assert (Hi' : incl es (dkeys cl)) by (intros y Hy; apply Hi; now right).
    cbn [pass_step] in E. destruct (rule asm e) as [asm1 idxs] eqn:Er.
    destruct (fst e) as [|b0 b] eqn:Eb.
    { destruct (IH cl asm1 need cl' asm' need' NDe' Hi' ND E) as (A & B & C).
      split; [exact A|]. split; [|exact C]. intros Hn. destruct (B Hn) as (B1 & B2 & B3). repeat split; auto.
      intros e' [<-|He'] Hb; [congruence|]. now apply B3. }
    assert (V : valid e idxs).
    { split; [congruence|]. intros i Hii. apply (Hr asm e). now rewrite Er. }
    destruct idxs as [|i0 idxs0] eqn:Ei.
    { cbn [fold_left] in E. rewrite Bool.orb_false_r in E.
      destruct (IH cl asm1 need cl' asm' need' NDe' Hi' ND E) as (A & B & C).
      split; [exact A|]. split; [|exact C]. intros Hn. destruct (B Hn) as (B1 & B2 & B3). repeat split; auto.
      intros e' [<-|He'] Hb; [exists asm; now rewrite Er|]. now apply B3. }
    rewrite <- Ei in *. fold (split_at e idxs cl) in E.
    assert (Hs : step cl (split_at e idxs cl)). { exists e, idxs. repeat split; auto; try apply V. rewrite Ei; discriminate. }
    assert (ND1 := step_NoDup _ _ Hs ND).
    assert (Hi1 : incl es (dkeys (split_at e idxs cl))).
    { intros y Hy. apply (splits_keys e (cget cl e) idxs cl V ND). left. split; [now apply Hi'|].
      right. intros ->. contradiction. }
    rewrite Bool.orb_true_r in E.
    destruct (IH _ asm1 true cl' asm' need' NDe' Hi1 ND1 E) as (A & B & C).
    split; [econstructor; eauto|]. split.
    + intros Hn. destruct (B Hn) as [B1 _]. discriminate.
    + intros _. right. pose proof (step_measure _ _ ND Hs). pose proof (steps_measure _ _ ND1 A). lia.
Qed.

Lemma pass_spec rule (Hr : valid_rule rule) cl asm need cl' asm' need' : NoDup (dkeys cl) ->
  pass rule (cl, asm, need) = (cl', asm', need') ->
  steps cl cl'
  /\ (need' = false -> need = false /\ cl' = cl
      /\ forall e, In e (dkeys cl) -> fst e <> [] -> exists asm0, snd (rule asm0 e) = [])
  /\ (need' = true -> need = true \/ measure cl' < measure cl).
Proof.
  intros ND E. apply (pass_fold rule Hr (dkeys cl) cl asm need cl' asm' need'); auto using incl_refl.
Qed.

Lemma places_In f t i : In i (places f t) <-> exists c, nth_error t i = Some c /\ f c = true.
Proof.
  unfold places. rewrite in_flat_map. split.
  - intros (j & Hj & H). destruct (nth_error t j) as [c|] eqn:E; [|destruct H].
    destruct (f c) eqn:Ef; [|destruct H]. destruct H as [<-|[]]. exists c. auto.
  - intros (c & E & F). exists i. split.
    + apply in_seq. assert (i < length t) by (apply nth_error_Some; congruence). lia.
    + rewrite E, F. now left.
Qed.
Lemma places_nil f t : places f t = [] -> forall c, In c t -> f c = false.
Proof.
  intros H c Hc. apply In_nth_error in Hc. destruct Hc as [i Hi]. destruct (f c) eqn:E; [|reflexivity].
  assert (In i (places f t)) by (apply places_In; eauto). rewrite H in *. contradiction.
Qed.

Section Rules.
  Variable u : ucd.

  Lemma indic_valid : valid_rule (indic_rule u).
  Proof.
    intros asm e i Hi. apply places_In in Hi. destruct Hi as (c & E & _). apply nth_error_Some. congruence.
  Qed.
  Lemma productive_valid many bm : valid_rule (productive_rule many bm).
  Proof.
    intros asm e i Hi. apply places_In in Hi. destruct Hi as (c & E & _). apply nth_error_Some. congruence.
  Qed.
  Lemma same_valid bm : valid_rule (same_bases_rule bm).
  Proof.
    intros asm e i Hi. unfold same_bases_rule in Hi. cbn [snd] in Hi. apply in_flat_map in Hi. destruct Hi as (j & Hj & H).
    destruct (nth_error (snd e) j) as [t|] eqn:E; [|destruct H].
    destruct (dget N.eqb bm t) as [bs|]; [|destruct H]. apply in_flat_map in H. destruct H as (kv & _ & H).
    destruct (negb (N.eqb t (fst kv)) && same_bases bs (snd kv))%bool; [|destruct H]. destruct H as [<-|[]].
    apply in_seq in Hj. lia.
  Qed.
  Lemma second_In : forall t asm prev i j, In j (snd (second_marks u asm prev i t)) -> i <= j < i + length t.
  Proof.
    induction t as [|c t IH]; intros asm prev i j H; cbn in H; [contradiction|].
    destruct (second_marks u _ (Some c) (S i) t) as [asm2 more] eqn:E. cbn [snd] in H.
    rewrite !in_app_iff in H. cbn [length]. destruct H as [H|[H|H]].
    - destruct (existsb (N.eqb c) asm); [|destruct H]. destruct H as [<-|[]]. lia.
    - destruct (match prev with Some p => _ | None => false end); [|destruct H]. destruct H as [<-|[]]. lia.
    - assert (Hx : In j (snd (second_marks u (if match prev with Some p => N.eqb (u_ccc u c) (u_ccc u p) | None => false end
                 then (if existsb (N.eqb c) asm then asm else asm ++ [c]) else asm) (Some c) (S i) t))) by (rewrite E; exact H).
      apply IH in Hx. lia.
  Qed.
  Lemma second_valid : valid_rule (second_rule u).
  Proof. intros asm e i Hi. unfold second_rule in Hi. apply second_In in Hi. lia. Qed.

  (** no two neighbours of one combining class *)
  Inductive unstacked : pystr -> Prop :=
  | us_nil : unstacked []
  | us_one c : unstacked [c]
  | us_cons a b t : u_ccc u a <> u_ccc u b -> unstacked (b :: t) -> unstacked (a :: b :: t).
  Lemma second_nil : forall t asm prev i, snd (second_marks u asm prev i t) = [] ->
    unstacked t /\ match prev, t with Some p, c :: _ => u_ccc u p <> u_ccc u c | _, _ => True end.
  Proof.
    induction t as [|c t IH]; intros asm prev i H; cbn in H.
    - split; [constructor|now destruct prev].
    - destruct (second_marks u _ (Some c) (S i) t) as [asm2 more] eqn:E. cbn [snd] in H.
      apply app_eq_nil in H. destruct H as [_ H]. apply app_eq_nil in H. destruct H as [H2 ->].
      assert (Hx : snd (second_marks u (if match prev with Some p => N.eqb (u_ccc u c) (u_ccc u p) | None => false end
                 then (if existsb (N.eqb c) asm then asm else asm ++ [c]) else asm) (Some c) (S i) t) = []) by (rewrite E; reflexivity).
      apply IH in Hx. destruct Hx as [A B]. split.
      + destruct t as [|c2 t]; [constructor|]. constructor; assumption.
      + destruct prev as [p|]; [|exact I]. destruct (N.eqb_spec (u_ccc u c) (u_ccc u p)); [discriminate|congruence].
  Qed.

  Lemma same_nil bm asm e : snd (same_bases_rule bm asm e) = [] ->
    forall t bs k bs', In t (snd e) -> dget N.eqb bm t = Some bs -> In (k, bs') bm -> k <> t -> same_bases bs bs' = false.
  Proof.
    intros H t bs k bs' Ht E Hk Hne. destruct (same_bases bs bs') eqn:Es; [|reflexivity]. exfalso.
    apply In_nth_error in Ht. destruct Ht as [i Hi].
    assert (Hx : In i (snd (same_bases_rule bm asm e))); [|rewrite H in Hx; exact Hx].
    unfold same_bases_rule. cbn [snd]. apply in_flat_map. exists i. split.
    - apply in_seq. assert (i < length (snd e)) by (apply nth_error_Some; congruence). lia.
    - rewrite Hi, E. apply in_flat_map. exists (k, bs'). split; [exact Hk|]. cbn [fst snd]. rewrite Es.
      destruct (N.eqb_spec t k); [congruence|]. now left.
  Qed.

  (** ** One round, and the loop *)
  Definition settled (many : nat) (bm : list (N * list pystr)) (e : exemplar) : Prop :=
    (forall t, In t (snd e) -> never_combine u t = false /\ u_ignorable u t = false)
    /\ (forall t bs k bs', In t (snd e) -> dget N.eqb bm t = Some bs -> In (k, bs') bm -> k <> t -> same_bases bs bs' = false)
    /\ (forall t bs, In t (snd e) -> dget N.eqb bm t = Some bs -> length bs <= many)
    /\ unstacked (snd e).

  Lemma round_spec many bm cl asm cl' asm' need : NoDup (dkeys cl) ->
    split_round u many bm cl asm = (cl', asm', need) ->
    steps cl cl'
    /\ (need = false -> cl' = cl /\ forall e, In e (dkeys cl) -> fst e <> [] -> settled many bm e)
    /\ (need = true -> measure cl' < measure cl).
  Proof.
    intros ND E. unfold split_round in E.
    destruct (pass (indic_rule u) (cl, asm, false)) as [[c1 a1] n1] eqn:E1.
    destruct (pass (same_bases_rule bm) (c1, a1, n1)) as [[c2 a2] n2] eqn:E2.
    destruct (pass (productive_rule many bm) (c2, a2, n2)) as [[c3 a3] n3] eqn:E3.
    destruct (pass_spec _ indic_valid _ _ _ _ _ _ ND E1) as (A1 & B1 & C1).
    assert (ND1 := steps_NoDup _ _ A1 ND).
    destruct (pass_spec _ (same_valid bm) _ _ _ _ _ _ ND1 E2) as (A2 & B2 & C2).
    assert (ND2 := steps_NoDup _ _ A2 ND1).
    destruct (pass_spec _ (productive_valid many bm) _ _ _ _ _ _ ND2 E3) as (A3 & B3 & C3).
    assert (ND3 := steps_NoDup _ _ A3 ND2).
    destruct (pass_spec _ second_valid _ _ _ _ _ _ ND3 E) as (A4 & B4 & C4).
    pose proof (steps_measure _ _ ND A1) as M1. pose proof (steps_measure _ _ ND1 A2) as M2.
    pose proof (steps_measure _ _ ND2 A3) as M3. pose proof (steps_measure _ _ ND3 A4) as M4.
    split; [eapply steps_trans; [exact A1|eapply steps_trans; [exact A2|eapply steps_trans; [exact A3|exact A4]]]|]. split.
    - intros Hn. destruct (B4 Hn) as (H3 & -> & D4). destruct (B3 H3) as (H2 & -> & D3).
      destruct (B2 H2) as (H1 & -> & D2). destruct (B1 H1) as (_ & -> & D1). split; [reflexivity|].
      intros e He Hb. split; [|split; [|split]].
      + destruct (D1 e He Hb) as [a0 Ha]. intros t Ht. pose proof (places_nil _ _ Ha t Ht) as Hf. cbn beta in Hf.
        apply Bool.orb_false_iff in Hf. exact Hf.
      + destruct (D2 e He Hb) as [a0 Ha]. exact (same_nil bm a0 e Ha).
      + destruct (D3 e He Hb) as [a0 Ha]. intros t bs Ht Eb. pose proof (places_nil _ _ Ha t Ht) as Hf. cbn beta in Hf.
        rewrite Eb in Hf. apply Nat.ltb_ge in Hf. exact Hf.
      + destruct (D4 e He Hb) as [a0 Ha]. now apply second_nil in Ha.
    - intros Hn. destruct (C4 Hn) as [H3|]; [|lia]. destruct (C3 H3) as [H2'|]; [|lia].
      destruct (C2 H2') as [H1|]; [|lia]. destruct (C1 H1) as [|]; [discriminate|lia].
  Qed.

  Lemma loop_spec many bm : forall fuel cl asm, NoDup (dkeys cl) -> measure cl < fuel ->
    exists cl' asm', split_loop u fuel many bm cl asm = Ok (cl', asm')
      /\ steps cl cl' /\ forall e, In e (dkeys cl') -> fst e <> [] -> settled many bm e.
  Proof.
    induction fuel as [|fuel IH]; intros cl asm ND Hf; [lia|]. cbn [split_loop].
    destruct (split_round u many bm cl asm) as [[c1 a1] need] eqn:E.
    destruct (round_spec _ _ _ _ _ _ _ ND E) as (A & B & C). destruct need.
    - specialize (C eq_refl). destruct (IH c1 a1) as (cl' & asm' & E2 & S2 & D2); [eapply steps_NoDup; eauto|lia|].
      exists cl', asm'. split; [exact E2|]. split; [eapply steps_trans; eauto|exact D2].
    - destruct (B eq_refl) as [-> D]. exists cl, a1. split; [reflexivity|]. split; [constructor|exact D].
  Qed.
End Rules.

(** ** What splitting keeps *)

(** [e] is a part of the cluster [e0]: its base with some of the trailers, or one trailer. *)
Definition part_of (e0 e : exemplar) : Prop :=
  (fst e = fst e0 /\ subseq (snd e) (snd e0)) \/ exists m, In m (snd e0) /\ e = ([], [m]).

Lemma step_parts (cl0 cl cl' : counter) : NoDup (dkeys cl) -> step cl cl' ->
  (forall e, In e (dkeys cl) -> exists e0, In e0 (dkeys cl0) /\ part_of e0 e) ->
  forall e, In e (dkeys cl') -> exists e0, In e0 (dkeys cl0) /\ part_of e0 e.
Proof.
  intros ND (s & idxs & Hs & V & Hne & ->) H e He.
  apply (splits_keys s (cget cl s) idxs cl V ND) in He.
  destruct He as [[He _]|(i & m & Hi & Em & R)]; [auto|].
  destruct (H s Hs) as (e0 & H0 & P). exists e0. split; [exact H0|].
  destruct P as [[Pb Ps]|(m' & _ & ->)]; [|destruct V as [V _]; cbn in V; congruence].
  destruct R as [->| ->].
  - right. exists m. split; [|reflexivity]. eapply subseq_in; [exact Ps|]. eapply nth_error_In; eauto.
  - left. cbn. split; [exact Pb|]. eapply subseq_trans; [apply drop_nth_subseq|exact Ps].
Qed.
Lemma steps_parts cl cl' : NoDup (dkeys cl) -> steps cl cl' ->
  forall e, In e (dkeys cl') -> exists e0, In e0 (dkeys cl) /\ part_of e0 e.
Proof.
  intros ND H.
  assert (G : forall cl0 : counter, (forall e, In e (dkeys cl) -> exists e0, In e0 (dkeys cl0) /\ part_of e0 e) ->
              forall e, In e (dkeys cl') -> exists e0, In e0 (dkeys cl0) /\ part_of e0 e).
  { intros cl0. induction H as [|a b c H H' IH]; [auto|]. intros H0. apply IH; [eapply step_NoDup; eauto|].
    eapply step_parts; eauto. }
  apply (G cl). intros e He. exists e. split; [exact He|]. left. split; [reflexivity|apply subseq_refl].
Qed.

(** [e0] is still covered: its base with some of the trailers is there, and every other
    trailer is there by itself. *)
Definition covers (ks : list exemplar) (e0 : exemplar) : Prop :=
  exists t', In (fst e0, t') ks /\ subseq t' (snd e0)
    /\ forall m, In m (snd e0) -> In m t' \/ In ([], [m]) ks.

Lemma step_covers cl cl' e0 : NoDup (dkeys cl) -> step cl cl' -> covers (dkeys cl) e0 -> covers (dkeys cl') e0.
Proof.
  intros ND (s & idxs & Hs & V & Hne & ->) (t' & Ht & Hsub & Hm).
  pose proof (splits_keys s (cget cl s) idxs cl V ND) as [_ K]. fold (split_at s idxs cl) in K.
  assert (Hmark : forall m, In ([], [m]) (dkeys cl) -> In ([], [m]) (dkeys (split_at s idxs cl))).
  { intros m Hin. apply K. left. split; [exact Hin|]. right. intros <-. destruct V as [V _]. cbn in V. congruence. }
  destruct (ex_eqb_spec (fst e0, t') s) as [Es|Hd].
  - destruct idxs as [|i idxs]; [congruence|]. destruct V as [Vb V].
    assert (Hi : i < length (snd s)) by (apply V; now left).
    destruct (nth_error (snd s) i) as [m|] eqn:Em; [|apply nth_error_None in Em; lia].
    exists (drop_nth i t'). rewrite <- Es in Em. cbn [snd] in Em. split; [|split].
    + apply K. right. exists i, m. rewrite <- Es. cbn [fst snd]. split; [now left|]. split; [exact Em|now right].
    + eapply subseq_trans; [apply drop_nth_subseq|exact Hsub].
    + intros x Hx. destruct (Hm x Hx) as [H|H]; [|right; now apply Hmark].
      destruct (drop_nth_in i t' m x Em H) as [->|H2]; [|now left]. right. apply K. right. exists i, m.
      rewrite <- Es. cbn [snd]. split; [now left|]. split; [exact Em|now left].
  - exists t'. split; [|split; [exact Hsub|]].
    + apply K. left. split; [exact Ht|now right].
    + intros x Hx. destruct (Hm x Hx); [now left|right; now apply Hmark].
Qed.
Lemma steps_covers cl cl' : NoDup (dkeys cl) -> steps cl cl' -> forall e, In e (dkeys cl) -> covers (dkeys cl') e.
Proof.
  intros ND H.
  assert (G : forall e0, covers (dkeys cl) e0 -> covers (dkeys cl') e0).
  { intros e0. induction H as [|a b c H H' IH]; [auto|]. intros H0. apply IH; [eapply step_NoDup; eauto|].
    eapply step_covers; eauto. }
  intros e He. apply G. exists (snd e). split; [now destruct e|]. split; [apply subseq_refl|]. intros m Hm. now left.
Qed.

(** *** Counts *)
Definition base_count (b : pystr) (cl : counter) : nat :=
  fold_right Nat.add 0 (map (fun kv : exemplar * nat => if streq (fst (fst kv)) b then snd kv else 0) cl).
Lemma base_count_cadd b cl e n : base_count b (cadd cl e n) = base_count b cl + (if streq (fst e) b then n else 0).
Proof.
  unfold base_count, cadd, cget. induction cl as [|[k v] cl IH]; cbn.
  - destruct (streq (fst e) b); lia.
  - destruct (ex_eqb_spec e k) as [->|H]; cbn.
    + destruct (streq (fst k) b); lia.
    + rewrite IH. lia.
Qed.
Lemma base_count_cdel b cl e : base_count b (cdel cl e) + (if streq (fst e) b then cget cl e else 0) = base_count b cl.
Proof.
  unfold base_count, cdel, cget. induction cl as [|[k v] cl IH]; cbn.
  - destruct (streq (fst e) b); lia.
  - destruct (ex_eqb_spec e k) as [->|H]; cbn.
    + destruct (streq (fst k) b); lia.
    + destruct (streq (fst e) b) eqn:E; destruct (streq (fst k) b); lia.
Qed.
Lemma split_absent e n i cl : fst e <> [] -> NoDup (dkeys cl) -> i < length (snd e) ->
  cget (split_exemplar e n cl i) e = 0.
Proof.
  intros Hb ND Hi. unfold split_exemplar.
  destruct (nth_error (snd e) i) as [m|] eqn:Em; [|apply nth_error_None in Em; lia].
  unfold cget at 1, cdel. rewrite (dget_ddel _ ex_eqb_spec) by (now apply cadd_NoDup, cadd_NoDup).
  destruct (ex_eqb_spec e e); congruence.
Qed.
Lemma split_base_count b e n i cl : fst e <> [] -> b <> [] -> i < length (snd e) ->
  base_count b (split_exemplar e n cl i) + (if streq (fst e) b then cget cl e else 0)
  = base_count b cl + (if streq (fst e) b then n else 0).
Proof.
  intros Hb Hb' Hi. unfold split_exemplar.
  destruct (nth_error (snd e) i) as [m|] eqn:Em; [|apply nth_error_None in Em; lia].
  set (cl2 := cadd (cadd cl _ _) _ _).
  assert (Hc : cget cl2 e = cget cl e).
  { unfold cl2. rewrite !cget_cadd.
    destruct (ex_eqb_spec e (fst e, drop_nth i (snd e))) as [H|_].
    { pose proof (drop_nth_length i (snd e) Hi). rewrite H in H0 at 2. cbn [snd] in H0. lia. }
    destruct (ex_eqb_spec e ([], [m])) as [H|_]; [rewrite H in Hb; cbn in Hb; congruence|]. lia. }
  pose proof (base_count_cdel b cl2 e) as HD. rewrite Hc in HD.
  unfold cl2 in HD at 2. rewrite !base_count_cadd in HD. cbn [fst] in HD.
  destruct (streq_spec [] b); [congruence|]. destruct (streq (fst e) b); lia.
Qed.
Lemma splits_base_count b e n : fst e <> [] -> b <> [] -> forall idxs cl,
  (forall i, In i idxs -> i < length (snd e)) -> NoDup (dkeys cl) -> cget cl e = 0 ->
  base_count b (fold_left (split_exemplar e n) idxs cl)
  = base_count b cl + (if streq (fst e) b then length idxs * n else 0).
Proof.
  intros Hb Hb'. induction idxs as [|i idxs IH]; intros cl Hv ND H0; cbn [fold_left length].
  - destruct (streq (fst e) b); lia.
  - assert (Hi : i < length (snd e)) by (apply Hv; now left).
    destruct (nth_error (snd e) i) as [m|] eqn:Em; [|apply nth_error_None in Em; lia].
    rewrite IH.
    + pose proof (split_base_count b e n i cl Hb Hb' Hi) as HS. rewrite H0 in HS. destruct (streq (fst e) b); lia.
    + intros j Hj. apply Hv. now right.
    + eapply split1_keys; eauto.
    + now apply split_absent.
Qed.
Lemma step_base_count b cl cl' : b <> [] -> NoDup (dkeys cl) -> step cl cl' -> base_count b cl <= base_count b cl'.
Proof.
  intros Hb' ND (e & idxs & He & [Hb Hv] & Hne & ->). unfold split_at. destruct idxs as [|i idxs]; [congruence|].
  cbn [fold_left]. assert (Hi : i < length (snd e)) by (apply Hv; now left).
  destruct (nth_error (snd e) i) as [m|] eqn:Em; [|apply nth_error_None in Em; lia].
  rewrite splits_base_count; try assumption.
  - pose proof (split_base_count b e (cget cl e) i cl Hb Hb' Hi). destruct (streq (fst e) b); lia.
  - intros j Hj. apply Hv. now right.
  - eapply split1_keys; eauto.
  - now apply split_absent.
Qed.

(** ** C40 *)

(** The splitting of the clusters ends, whatever the clusters, the marks and the properties of
    characters are. *)
Theorem C40_terminates : forall u many bm cl asm, NoDup (dkeys cl) ->
  exists bound, forall fuel, bound < fuel -> exists cl' asm', split_loop u fuel many bm cl asm = Ok (cl', asm').
Proof.
  intros u many bm cl asm ND. exists (measure cl). intros fuel Hf.
  destruct (loop_spec u many bm fuel cl asm ND Hf) as (cl' & asm' & E & _). eauto.
Qed.

Lemma never_combine_false u m : never_combine u m = false -> u_ccc u m = 7%N \/ (768 <= m <= 879)%N.
Proof.
  unfold never_combine, isnukta, sometimes_combine. intros H. apply Bool.andb_false_iff in H.
  rewrite !Bool.negb_false_iff in H. destruct H as [H|H].
  - left. now apply N.eqb_eq.
  - right. apply andb_prop in H. destruct H as [H1 H2]. apply N.leb_le in H1, H2. lia.
Qed.
Lemma same_bases_spec a b : same_bases a b = true <-> forall x, In x a <-> In x b.
Proof.
  unfold same_bases. rewrite Bool.andb_true_iff, !forallb_forall. split.
  - intros [H1 H2] x. split; intros H; apply smem_spec; auto.
  - intros H. split; intros x Hx; apply smem_spec; now apply H.
Qed.

(** When it has ended, every trailer of a cluster with a base is a nukta or one of the
    combining diacritics, not ignorable, shares its set of bases with no other mark, is on no
    more bases than allowed, and does not follow a trailer of its combining class. *)
Theorem C40_settled : forall u many bm cl asm fuel cl' asm', NoDup (dkeys cl) -> measure cl < fuel ->
  split_loop u fuel many bm cl asm = Ok (cl', asm') ->
  forall b t, In (b, t) (dkeys cl') -> b <> [] ->
    (forall m, In m t -> (u_ccc u m = 7%N \/ (768 <= m <= 879)%N) /\ u_ignorable u m = false)
    /\ (forall m bs k bs', In m t -> dget N.eqb bm m = Some bs -> In (k, bs') bm -> k <> m ->
          ~ (forall x, In x bs <-> In x bs'))
    /\ (forall m bs, In m t -> dget N.eqb bm m = Some bs -> length bs <= many)
    /\ (forall pre a b post, t = pre ++ a :: b :: post -> u_ccc u a <> u_ccc u b).
Proof.
  intros u many bm cl asm fuel cl' asm' ND Hf E b t He Hb.
  destruct (loop_spec u many bm fuel cl asm ND Hf) as (c & a & E2 & _ & D). rewrite E in E2. injection E2 as <- <-.
  destruct (D _ He Hb) as (D1 & D2 & D3 & D4). cbn [fst snd] in *. split; [|split; [|split]].
  - intros m Hm. destruct (D1 m Hm) as [X Y]. split; [now apply never_combine_false|exact Y].
  - intros m bs k bs' Hm Eb Hk Hne Hs. apply same_bases_spec in Hs. rewrite (D2 m bs k bs' Hm Eb Hk Hne) in Hs. discriminate.
  - exact D3.
  - clear - D4. induction D4 as [| |a b t H D IH]; intros pre x y post Et.
    + destruct pre as [|? [|]]; discriminate.
    + destruct pre as [|? [|]]; discriminate.
    + destruct pre as [|z pre]; cbn in Et.
      * injection Et as <- <- _. exact H.
      * injection Et as _ Et. apply (IH pre x y post). exact Et.
Qed.

(** Nothing is invented and nothing lost: what is left are parts of the clusters there were,
    and of every cluster the base is left, with some of its trailers, the others apart. *)
Theorem C40_keeps : forall u many bm cl asm fuel cl' asm', NoDup (dkeys cl) -> measure cl < fuel ->
  split_loop u fuel many bm cl asm = Ok (cl', asm') ->
  (forall e, In e (dkeys cl') -> exists e0, In e0 (dkeys cl) /\ part_of e0 e)
  /\ (forall e0, In e0 (dkeys cl) -> covers (dkeys cl') e0)
  /\ (forall b, b <> [] -> base_count b cl <= base_count b cl').
Proof.
  intros u many bm cl asm fuel cl' asm' ND Hf E.
  destruct (loop_spec u many bm fuel cl asm ND Hf) as (c & a & E2 & Hs & _). rewrite E in E2. injection E2 as <- <-.
  split; [now apply steps_parts|]. split; [now apply steps_covers|].
  intros b Hb. clear E. induction Hs as [|x y z H H' IH]; [lia|].
  pose proof (step_base_count b x y Hb ND H). pose proof (IH (step_NoDup _ _ H ND)).
  destruct (loop_spec u many bm fuel x asm ND Hf) as (? & ? & ? & ? & ?).
  assert (Hm : measure y < fuel) by (pose proof (step_measure x y ND H); lia). specialize (H1 Hm). lia.
Qed.

(** The counts are not kept: a cluster that is split at two places is counted twice. A "k"
    with two vowel signs, seen once, is counted two times. *)
Definition u_indic : ucd := mkUCD
  (fun c => N.leb 2366 c && N.leb c 2380)%bool (fun c => if N.eqb c 2381 then 9%N else 0%N) (fun c => N.leb 2406 c && N.leb c 2415)%bool
  (fun c => N.leb 2304 c && N.leb c 2431)%bool (fun _ => false) (fun c => N.eqb c 2404) (fun _ => false) (fun _ => false) (fun c => N.leb 2304 c && N.leb c 2431)%bool
  (fun c => N.eqb c zwj || N.eqb c zwnj || N.eqb c 173)%bool (fun c => c).
Theorem C40_counts_refuted :
  match split_loop u_indic 10 5 (count_marks u_indic [(([2325], [2366; 2376])%N, 1)] []) [(([2325], [2366; 2376])%N, 1)] [] with
  | Ok (cl', _) => cget cl' ([2325%N], []) = 2 /\ cget cl' ([], [2366%N]) = 2 /\ cget cl' ([], [2376%N]) = 2
                   /\ length cl' = 3
  | Raise _ => False
  end.
Proof. now vm_compute. Qed.

(** the hypotheses are met *)
Example C40_ex : let cl := [(([2325], [2366; 2376])%N, 1); (([2326%N], []), 3)] in
  NoDup (dkeys cl) /\ measure cl < 10 /\
  exists cl' asm', split_loop u_indic 10 5 (count_marks u_indic cl []) cl [] = Ok (cl', asm').
Proof.
  cbn zeta. split.
  - repeat constructor; cbn; intuition congruence.
  - split; [vm_compute; lia|]. eexists _, _. vm_compute. reflexivity.
Qed.
