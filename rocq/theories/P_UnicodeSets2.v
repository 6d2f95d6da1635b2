(** Proofs about the model of UnicodeSets.py: termination, ranges, flatten. *)
From Verif Require Import Py PyFacts M_UnicodeSets P_UnicodeSets.
Open Scope N_scope.

(** * Which exceptions *)
Definition parse_exn (e : exn) : Prop :=
  e = IndexError \/ e = ValueError \/ e = AttributeError \/ e = TypeError.
Definition fine {A} (r : res A) : Prop :=
  match r with Ok _ => True | Raise e => parse_exn e end.

Lemma fine_bind {A B} (r : res A) (f : A -> res B) :
  fine r -> (forall a, r = Ok a -> fine (f a)) -> fine (bind r f).
Proof. destruct r; cbn; auto. Qed.

Lemma resub_fine at_ : (forall s n r, at_ s = Some (n, r) -> fine r) ->
  forall s k, fine (resub at_ k s).
Proof.
  intros H. induction s as [|c s IH]; intros k; [exact I|].
  cbn [resub]. destruct k as [|k]; [|apply IH].
  destruct (at_ (c :: s)) as [[n r]|] eqn:E.
  - apply fine_bind; [now apply (H (c :: s) n)|]. intros a _.
    apply fine_bind; [apply IH|]. intros; exact I.
  - apply fine_bind; [apply IH|]. intros; exact I.
Qed.
Lemma pychr_fine v : fine (pychr v).
Proof. unfold pychr. destruct (v <? 1114112); cbn; [exact I|]. right. now left. Qed.
Lemma hexescre_fine s : fine (hexescre_sub s).
Proof.
  apply resub_fine. intros s' n r. destruct (hexesc_at s') as [[m v]|]; [|discriminate].
  injection 1 as _ <-. apply fine_bind; [apply pychr_fine|]. intros; exact I.
Qed.
Lemma hexgre_fine s : fine (hexgre_sub s).
Proof.
  apply resub_fine. intros s' n r. destruct (hexgre_at s') as [[m v]|]; [|discriminate].
  injection 1 as _ <-. apply fine_bind; [apply pychr_fine|]. intros; exact I.
Qed.

Lemma index_from_range c s : forall i k, index_from c s i = Ok k -> (i <= k < length s)%nat.
Proof.
  induction s as [|x s IH]; intros i k H; [discriminate|].
  cbn [index_from length] in *. destruct i as [|i].
  - destruct (x =? c); [injection H as <-; lia|].
    destruct (index_from c s 0) as [k'|] eqn:E; [|discriminate]. injection H as <-.
    apply IH in E. lia.
  - destruct (index_from c s i) as [k'|] eqn:E; [|discriminate]. injection H as <-.
    apply IH in E. lia.
Qed.
Lemma index_from_fine c s : forall i, fine (index_from c s i).
Proof.
  induction s as [|x s IH]; intros i; [right; now left|].
  cbn [index_from]. destruct i as [|i].
  - destruct (x =? c); [exact I|]. apply fine_bind; [apply IH|]. intros; exact I.
  - apply fine_bind; [apply IH|]. intros; exact I.
Qed.

Lemma close_class_fine s fuel : forall e, (e < length s)%nat -> (length s <= e + fuel)%nat ->
  fine (close_class fuel s e).
Proof.
  induction fuel as [|f IH]; intros e He Hf; cbn [close_class]; [lia|].
  destruct (_ && _)%bool; [|exact I].
  apply fine_bind; [apply index_from_fine|]. intros k Hk. apply index_from_range in Hk.
  apply IH; lia.
Qed.
Lemma close_class_range s fuel : forall e k, close_class fuel s e = Ok k -> (e < length s)%nat -> (e <= k < length s)%nat.
Proof.
  induction fuel as [|f IH]; intros e k; cbn [close_class]; destruct (_ && _)%bool; intros H He;
    try discriminate; try (injection H as <-; lia).
  destruct (index_from 93 s (e + 1)) as [e'|] eqn:E; [|discriminate]. cbn [bind] in H.
  apply index_from_range in E. apply IH in H; lia.
Qed.
Lemma close_brace_fine s fuel : forall e, (e < length s)%nat -> (length s <= e + fuel)%nat ->
  fine (close_brace fuel s e).
Proof.
  induction fuel as [|f IH]; intros e He Hf; cbn [close_brace]; [lia|].
  destruct (_ && _)%bool; [|exact I].
  apply fine_bind; [apply index_from_fine|]. intros k Hk. apply index_from_range in Hk.
  apply IH; lia.
Qed.
Lemma close_brace_range s fuel : forall e k, close_brace fuel s e = Ok k -> (e < length s)%nat -> (e <= k < length s)%nat.
Proof.
  induction fuel as [|f IH]; intros e k; cbn [close_brace]; destruct (_ && _)%bool; intros H He;
    try discriminate; try (injection H as <-; lia).
  destruct (index_from 125 s (e + 1)) as [e'|] eqn:E; [|discriminate]. cbn [bind] in H.
  apply index_from_range in E. apply IH in H; lia.
Qed.

Lemma us_binop_fine op last item : fine (us_binop op last item).
Proof.
  unfold us_binop, pyord. destruct item as [it|]; [|exact I].
  destruct (_ && _)%bool; [|exact I].
  destruct (us_plain last), (us_neg last), (us_neg it), (op =? 124), (op =? 38), (us_class last && us_class it)%bool;
    cbn; try exact I; try (right; right; now left);
    destruct (us_items last) as [|a [|]]; try exact I;
    destruct (us_items it) as [|b [|]]; try exact I;
    destruct a as [|? [|]]; cbn; try exact I; try (right; right; now right);
    destruct b as [|? [|]]; cbn; try exact I; try (right; right; now right).
Qed.

(** * Progress and termination *)
Section Term.
  Variable ud : N -> bool.

  Lemma class_loop_inv item1 lo e fuel : forall ind item acc,
    (forall i it, (lo <= i < e)%nat -> fine (item1 i it e) /\
        forall i' a b, item1 i it e = Ok (i', a, b) -> (i < i')%nat) ->
    (lo <= ind)%nat -> (e <= ind + fuel)%nat ->
    fine (class_loop item1 fuel ind e item acc) /\
    (forall i' a b, class_loop item1 fuel ind e item acc = Ok (i', a, b) -> (ind <= i')%nat).
  Proof.
    induction fuel as [|f IH]; intros ind item acc H Hlo Hf; cbn [class_loop].
    - destruct (Nat.ltb_spec ind e) as [Hi|Hi]; [lia|]. split; [exact I|].
      intros i' a b E. injection E as <- <- <-. lia.
    - destruct (Nat.ltb_spec ind e) as [Hi|Hi].
      + destruct (H ind item (conj Hlo Hi)) as [Hfine Hprog].
        destruct (item1 ind item e) as [[[i1 it] nx]|ex] eqn:E; cbn [bind].
        * specialize (Hprog i1 it nx eq_refl).
          destruct (IH i1 nx (match it with Some u => sunion acc (us_items u) | None => acc end) H) as [A B]; [lia|lia|].
          split; [exact A|]. intros i' a b E'. apply B in E'. lia.
        * split; [exact Hfine|]. discriminate.
      + split; [exact I|]. intros i' a b E. injection E as <- <- <-. lia.
  Qed.

  Lemma parseitem_inv s : forall fuel ind last end_,
    (length s <= ind + fuel)%nat ->
    fine (parseitem ud fuel s ind last end_) /\
    (ind <> end_ -> forall i' a b, parseitem ud fuel s ind last end_ = Ok (i', a, b) ->
       (ind < i')%nat /\ b <> None).
  Proof.
    induction fuel as [|f IH]; intros ind last end_ Hf.
    - cbn [parseitem]. destruct (Nat.eqb_spec ind end_) as [->|Hne].
      + split; [exact I|]. congruence.
      + replace (nth_error s ind) with (@None N) by (symmetry; apply nth_error_None; lia).
        split; [now left|]. intros _ i' a b E. discriminate.
    - cbn [parseitem]. destruct (Nat.eqb_spec ind end_) as [->|Hne].
      { split; [exact I|]. congruence. }
      destruct (nth_error s ind) as [c|] eqn:Hc.
      2:{ split; [now left|]. intros _ i' a b E. discriminate. }
      assert (Hlt : (ind < length s)%nat) by (apply nth_error_Some; congruence).
      destruct (c =? 91).
      { destruct (nth_error s (ind + 1)) as [c1|] eqn:Hc1.
        2:{ split; [now left|]. intros _ i' a b E. discriminate. }
        set (ind1 := if c1 =? 94 then (ind + 2)%nat else (ind + 1)%nat).
        assert (Hind1 : (ind < ind1)%nat) by (unfold ind1; destruct (c1 =? 94); lia).
        cbn zeta. fold ind1.
        destruct (index_from 93 s ind1) as [e0|ex] eqn:E0; cbn [bind].
        2:{ split; [|intros; discriminate]. pose proof (index_from_fine 93 s ind1) as F. now rewrite E0 in F. }
        apply index_from_range in E0.
        destruct (close_class (length s) s e0) as [e|ex] eqn:E1; cbn [bind].
        2:{ split; [|intros; discriminate]. pose proof (close_class_fine s (length s) e0) as F.
            rewrite E1 in F. apply F; lia. }
        apply close_class_range in E1; [|lia].
        assert (L : fine (class_loop (parseitem ud f s) (length s) ind1 e None []) /\
          (forall i' a b, class_loop (parseitem ud f s) (length s) ind1 e None [] = Ok (i', a, b) -> (ind1 <= i')%nat)).
        { apply class_loop_inv with (lo := ind1); [|lia|lia]. intros i it Hi.
          destruct (IH i it e) as [A B]; [lia|]. split; [exact A|].
          intros i' a b E. apply B in E; [tauto|lia]. }
        destruct L as [L1 L2].
        destruct (class_loop (parseitem ud f s) (length s) ind1 e None []) as [[[i2 it] acc]|ex] eqn:E2; cbn [bind].
        2:{ split; [exact L1|intros; discriminate]. }
        split; [exact I|]. intros _ i' a b E. injection E as <- <- <-.
        specialize (L2 _ _ _ eq_refl). split; [lia|discriminate]. }
      destruct (inchars c (lit "|&-")).
      { destruct last as [last|].
        2:{ split; [exact I|]. intros _ i' a b E. injection E as <- <- <-. split; [lia|discriminate]. }
        destruct (IH (ind + 1)%nat None end_) as [A B]; [lia|].
        destruct (parseitem ud f s (ind + 1) None end_) as [[[i1 x] item]|ex] eqn:E1; cbn [bind].
        2:{ split; [exact A|intros; discriminate]. }
        assert (Hi1 : (ind + 1 <= i1)%nat).
        { destruct (Nat.eq_dec (ind + 1) end_) as [Ee|Ee].
          - destruct f; cbn [parseitem] in E1; rewrite Ee, Nat.eqb_refl in E1; injection E1 as <- _ _; lia.
          - destruct (B Ee _ _ _ eq_refl). lia. }
        pose proof (us_binop_fine c last item) as F.
        destruct (us_binop c last item) as [[l' r]|ex]; cbn [bind].
        - split; [exact I|]. intros _ i' a b E. injection E as <- <- <-. split; [lia|discriminate].
        - split; [exact F|intros; discriminate]. }
      destruct (c =? 123).
      { destruct (index_from 125 s (ind + 1)) as [e0|ex] eqn:E0; cbn [bind].
        2:{ split; [|intros; discriminate]. pose proof (index_from_fine 125 s (ind + 1)) as F. now rewrite E0 in F. }
        apply index_from_range in E0.
        destruct (close_brace (length s) s e0) as [e|ex] eqn:E1; cbn [bind].
        2:{ split; [|intros; discriminate]. pose proof (close_brace_fine s (length s) e0) as F.
            rewrite E1 in F. apply F; lia. }
        apply close_brace_range in E1; [|lia].
        split; [exact I|]. intros _ i' a b E. injection E as <- <- <-. split; [lia|discriminate]. }
      destruct (c =? 92).
      { destruct (nth_error s (ind + 1)) as [x|]; [|split; [now left|intros; discriminate]].
        split; [exact I|]. intros _ i' a b E. injection E as <- <- <-. split; [lia|discriminate]. }
      split; [exact I|]. intros _ i' a b E. injection E as <- <- <-. split; [lia|discriminate].
  Qed.

  Lemma parse_loop_fine s : forall fuel i acc,
    (length s <= i + fuel)%nat -> fine (parse_loop ud fuel s i acc).
  Proof.
    induction fuel as [|f IH]; intros i acc Hf; cbn [parse_loop];
      destruct (Nat.ltb_spec i (length s)) as [Hi|Hi]; try exact I; [lia|].
    destruct (parseitem_inv s (length s) i None (length s)) as [A B]; [lia|].
    destruct (parseitem ud (length s) s i None (length s)) as [[[i' a] b]|ex] eqn:E; cbn [bind]; [|exact A].
    destruct (B ltac:(lia) _ _ _ eq_refl) as [C D].
    destruct b as [u|]; [|congruence]. apply IH. lia.
  Qed.

  Lemma us_parse_fine s : fine (us_parse ud s).
  Proof.
    unfold us_parse. apply fine_bind; [apply hexescre_fine|]. intros s1 _.
    apply fine_bind; [apply hexgre_fine|]. intros s2 _.
    apply parse_loop_fine. lia.
  Qed.

  (** * Sets without repetition *)
  Definition wf (u : uset) : Prop := NoDup (us_items u).
  Definition wfo (o : option uset) : Prop := match o with Some u => wf u | None => True end.

  Lemma sunion_NoDup a b : NoDup a -> NoDup (sunion a b).
  Proof. apply fold_sadd_NoDup. Qed.

  Lemma seq_range_NoDup lo n : forall k, NoDup (map (fun k => [lo + N.of_nat k]) (seq k n)).
  Proof.
    induction n as [|n IH]; intros k; cbn [seq map]; constructor; [|apply IH].
    intros H. apply in_map_iff in H as (j & E & Hj). apply in_seq in Hj. injection E as E. lia.
  Qed.

  Lemma us_binop_wf op last item l' r :
    wf last -> wfo item -> us_binop op last item = Ok (l', r) -> wfo l' /\ wf r.
  Proof.
    intros Hl Hi. unfold us_binop. destruct item as [it|].
    2:{ intros E. injection E as <- <-. split; [exact Hl|]. repeat constructor. intros []. }
    cbn in Hi.
    destruct (_ && _)%bool.
    2:{ intros E. injection E as <- <-. split; [exact Hl|]. repeat constructor. intros []. }
    assert (G : forall a, NoDup a -> wf (us_plainset a)) by (intros; assumption).
    assert (F : forall (f : pystr -> bool) a, NoDup a -> NoDup (filter f a)) by (intros; now apply NoDup_filter).
    unfold sinter, sdiff.
    destruct (us_plain last), (us_neg last), (us_neg it), (op =? 124), (op =? 38), (us_class last && us_class it)%bool;
    cbn; intros E; try discriminate;
    try (injection E as <- <-; split; [exact I|]; apply G; auto using sunion_NoDup);
    destruct (us_items last) as [|a [|]] eqn:El;
    try (injection E as <- <-; split; [exact Hl|repeat constructor; intros []]);
    destruct (us_items it) as [|b [|]];
    try (injection E as <- <-; split; [exact Hl|repeat constructor; intros []]);
    unfold pyord in E; destruct a as [|? [|]]; try discriminate;
    destruct b as [|? [|]]; try discriminate;
    cbn in E; injection E as <- <-; (split; [exact I|]); unfold wf; cbn [us_items]; apply seq_range_NoDup.
  Qed.

  Lemma class_loop_wf item1 e fuel : forall ind item acc i' it' acc',
    (forall i it i' a b, wfo it -> item1 i it e = Ok (i', a, b) -> wfo a /\ wfo b) ->
    wfo item -> NoDup acc ->
    class_loop item1 fuel ind e item acc = Ok (i', it', acc') -> wfo it' /\ NoDup acc'.
  Proof.
    induction fuel as [|f IH]; intros ind item acc i' it' acc' H Hi Ha; cbn [class_loop];
      destruct (Nat.ltb ind e); intros E; try discriminate;
      try (injection E as <- <- <-; auto).
    destruct (item1 ind item e) as [[[i1 it] nx]|ex] eqn:E1; [|discriminate]. cbn [bind] in E.
    apply H in E1 as [A B]; [|exact Hi].
    apply IH in E; auto. destruct it; [|exact Ha]. now apply sunion_NoDup.
  Qed.

  Lemma parseitem_wf s : forall fuel ind last end_ i' a b,
    wfo last -> parseitem ud fuel s ind last end_ = Ok (i', a, b) -> wfo a /\ wfo b.
  Proof.
    assert (S1 : forall x, wf (us_single x)) by (intros x; repeat constructor; intros []).
    induction fuel as [|f IH]; intros ind last end_ i' a b Hl; cbn [parseitem];
      destruct (Nat.eqb ind end_); try (intros E; injection E as <- <- <-; split; [exact Hl|exact I]);
      destruct (nth_error s ind) as [c|]; try discriminate.
    destruct (c =? 91).
    { destruct (nth_error s (ind + 1)) as [c1|]; [|discriminate]. cbn zeta.
      destruct (index_from 93 s _) as [e0|]; [|discriminate]. cbn [bind].
      destruct (close_class (length s) s e0) as [e|]; [|discriminate]. cbn [bind].
      destruct (class_loop _ _ _ e None []) as [[[i2 it] acc]|] eqn:E2; [|discriminate]. cbn [bind].
      intros E. injection E as <- <- <-. split; [exact Hl|].
      apply class_loop_wf in E2 as [A B]; [|intros ? ? ? ? ? Hw; now apply IH|exact I|constructor].
      destruct it; [|exact B]. now apply sunion_NoDup. }
    destruct (inchars c (lit "|&-")).
    { destruct last as [last|]; [|intros E; injection E as <- <- <-; split; [exact I|apply S1]].
      destruct (parseitem ud f s (ind + 1) None end_) as [[[i1 x] item]|] eqn:E1; [|discriminate]. cbn [bind].
      apply IH in E1 as [_ Hi]; [|exact I].
      destruct (us_binop c last item) as [[l' r]|] eqn:E3; [|discriminate]. cbn [bind].
      intros E. injection E as <- <- <-. apply us_binop_wf in E3; auto. }
    destruct (c =? 123).
    { destruct (index_from 125 s _) as [e0|]; [|discriminate]. cbn [bind].
      destruct (close_brace (length s) s e0) as [e|]; [|discriminate]. cbn [bind].
      intros E. injection E as <- <- <-. split; [exact Hl|apply S1]. }
    destruct (c =? 92).
    { destruct (nth_error s (ind + 1)) as [x|]; [|discriminate].
      intros E. injection E as <- <- <-. split; [exact Hl|apply S1]. }
    intros E. injection E as <- <- <-. split; [exact Hl|apply S1].
  Qed.

  Lemma parse_loop_wf s : forall fuel i acc r,
    Forall (fun u => wf u /\ us_items u <> []) acc ->
    parse_loop ud fuel s i acc = Ok r -> Forall (fun u => wf u /\ us_items u <> []) r.
  Proof.
    induction fuel as [|f IH]; intros i acc r Ha; cbn [parse_loop]; destruct (Nat.ltb i (length s));
      intros E; try discriminate; try (injection E as <-; exact Ha).
    destruct (parseitem ud (length s) s i None (length s)) as [[[i' a] b]|ex] eqn:E1; [|discriminate].
    cbn [bind] in E. apply parseitem_wf in E1 as [_ Hb]; [|exact I].
    destruct b as [u|]; [|discriminate].
    apply IH in E; [exact E|]. unfold truthy. destruct (us_items u) eqn:Eu; [exact Ha|].
    apply Forall_app. split; [exact Ha|]. constructor; [|constructor].
    split; [exact Hb|congruence].
  Qed.
  Lemma us_parse_wf s r : us_parse ud s = Ok r -> Forall (fun u => wf u /\ us_items u <> []) r.
  Proof.
    unfold us_parse. destruct (hexescre_sub s) as [s1|]; [|discriminate]. cbn [bind].
    destruct (hexgre_sub s1) as [s2|]; [|discriminate]. cbn [bind].
    apply parse_loop_wf. constructor.
  Qed.
End Term.

(** * Ranges *)
Lemma hexescre_id s : ~ In 92 s -> hexescre_sub s = Ok s.
Proof.
  intros H. apply (resub_id hexat). intros p q E. apply hexat_none.
  destruct q as [|c q]; [reflexivity|]. apply hexesc_at_no92. intros ->. apply H. rewrite E.
  apply in_or_app. right. now left.
Qed.
Lemma hexgre_id s : ~ In 92 s -> hexgre_sub s = Ok s.
Proof.
  intros H. apply (resub_id gat). intros p q E. unfold gat. rewrite hexgre_at_none; [reflexivity|].
  intros t ->. apply H. rewrite E. apply in_or_app. right. now left.
Qed.

Lemma fold_sadd_fresh l : forall a, NoDup (a ++ l) -> fold_left sadd l a = a ++ l.
Proof.
  induction l as [|x l IH]; intros a H; cbn; [now rewrite app_nil_r|].
  unfold sadd at 2. replace (smem x a) with false.
  - rewrite IH; rewrite <- app_assoc; [reflexivity|exact H].
  - symmetry. apply not_true_iff_false. intros Hm. apply smem_spec in Hm.
    apply NoDup_remove_2 in H. apply H. apply in_or_app. now left.
Qed.

Lemma us_range ud lo hi :
  inchars lo us_syntax = false -> inchars hi us_syntax = false -> lo <> 32 -> hi <> 32 ->
  us2list ud [91; lo; 45; hi; 93] = Ok (char_range lo hi).
Proof.
  intros Hlo Hhi Slo Shi.
  apply syntax_false in Hlo, Hhi.
  unfold us2list, us_parse.
  rewrite hexescre_id. 2:{ cbn. intuition congruence. } cbn [bind].
  rewrite hexgre_id. 2:{ cbn. intuition congruence. } cbn [bind].
  rewrite filter_id.
  2:{ intros c [<-|[<-|[<-|[<-|[<-|[]]]]]]; try reflexivity; apply negb_true_iff, N.eqb_neq; assumption. }
  change (length [91; lo; 45; hi; 93]) with 5%nat.
  set (s := [91; lo; 45; hi; 93]).
  assert (Plain : forall f ind last e c,
    nth_error s ind = Some c -> ind <> e ->
    c <> 91 -> c <> 123 -> c <> 92 -> c <> 38 -> c <> 45 -> c <> 124 ->
    parseitem ud (S f) s ind last e = Ok (ind + 1, last, Some (us_single [c]))%nat).
  { intros f ind last e c Hn Hi H1 H3 H4 H5 H6 H7. cbn [parseitem].
    apply Nat.eqb_neq in Hi as ->. rewrite Hn.
    replace (c =? 91) with false by (symmetry; now apply N.eqb_neq).
    replace (c =? 123) with false by (symmetry; now apply N.eqb_neq).
    replace (c =? 92) with false by (symmetry; now apply N.eqb_neq).
    replace (inchars c (lit "|&-")) with false; [reflexivity|].
    symmetry. apply inchars_false. cbn. intuition congruence. }
  assert (Dash : forall f, parseitem ud (S (S f)) s 2 (Some (us_single [lo])) 4 =
     Ok (4, None, Some (USet (char_range lo hi) false false false))%nat).
  { intros f. transitivity (
      do (p, item) <- parseitem ud (S f) s 3%nat None 4%nat;
      let (ind', _) := p in
      do (last', r) <- us_binop 45 (us_single [lo]) item;
      Ok (ind', last', Some r)); [reflexivity|].
    rewrite (Plain f 3%nat None 4%nat hi) by (reflexivity || lia || tauto).
    reflexivity. }
  assert (Idx : index_from 93 s 1 = Ok 4%nat).
  { unfold s. cbn [index_from]. change (45 =? 93) with false. change (93 =? 93) with true.
    replace (lo =? 93) with false by (symmetry; apply N.eqb_neq; tauto).
    replace (hi =? 93) with false by (symmetry; apply N.eqb_neq; tauto). reflexivity. }
  assert (Cls : close_class 5 s 4 = Ok 4%nat).
  { cbn [close_class]. change (nth_error s (4 - 1)) with (Some hi). cbn [opt_is].
    replace (hi =? 92) with false by (symmetry; apply N.eqb_neq; tauto).
    rewrite andb_false_r. reflexivity. }
  assert (Loop : class_loop (parseitem ud 4 s) 5 1 4 None [] =
     Ok (4, Some (USet (char_range lo hi) false false false), [])%nat).
  { change (class_loop (parseitem ud 4 s) 5 1 4 None []) with
     (do (p, nextitem) <- parseitem ud 4 s 1%nat None 4%nat;
          let (ind', it) := p in
          let acc' := match it with Some u => sunion [] (us_items u) | None => [] end in
          class_loop (parseitem ud 4 s) 4 ind' 4 nextitem acc').
    rewrite (Plain 3%nat 1%nat None 4%nat lo) by (reflexivity || lia || tauto). cbn [bind].
    change (1 + 1)%nat with 2%nat.
    change (class_loop (parseitem ud 4 s) 4 2 4 (Some (us_single [lo])) []) with
     (do (p, nextitem) <- parseitem ud 4 s 2%nat (Some (us_single [lo])) 4%nat;
          let (ind', it) := p in
          let acc' := match it with Some u => sunion [] (us_items u) | None => [] end in
          class_loop (parseitem ud 4 s) 3 ind' 4 nextitem acc').
    rewrite Dash. reflexivity. }
  assert (Item : parseitem ud 5 s 0 None 5 = Ok (5, None, Some (USet (sunion [] (char_range lo hi)) false true false))%nat).
  { transitivity (
     let neg := N.eqb lo 94 in
     let ind1 := if neg then 2%nat else 1%nat in
     do e0 <- index_from 93 s ind1;
     do e <- close_class 5 s e0;
     do (p, acc) <- class_loop (parseitem ud 4 s) 5 ind1 e None [];
     let (ind2, item) := p in
     let acc' := match item with Some u => sunion acc (us_items u) | None => acc end in
     Ok (ind2 + 1, @None uset, Some (USet acc' neg true false))%nat); [reflexivity|].
    replace (lo =? 94) with false by (symmetry; apply N.eqb_neq; tauto).
    cbn zeta iota. rewrite Idx. cbn [bind]. rewrite Cls. cbn [bind]. rewrite Loop. reflexivity. }
  assert (PL : parse_loop ud 5 s 0 [] =
    do (p, nx) <- parseitem ud 5 s 0%nat None 5%nat;
    let (i', _) := p in
    match nx with
    | None => Raise AttributeError
    | Some u => parse_loop ud 4 s i' (if truthy (Some u) then [] ++ [u] else [])
    end) by reflexivity.
  rewrite PL, Item. cbn [bind].
  assert (PE : forall acc, parse_loop ud 4 s 5 acc = Ok acc) by reflexivity.
  rewrite PE. cbn [bind].
  unfold truthy. cbn [us_items app].
  unfold sunion. rewrite fold_sadd_fresh by exact (seq_range_NoDup ud lo _ 0). cbn [app].
  destruct (char_range lo hi); reflexivity.
Qed.

(** * The odometer of flatten *)
Fixpoint digits (lens : list nat) (k : nat) : list nat :=
  match lens with
  | [] => []
  | n :: lens' => (k mod n)%nat :: digits lens' (k / n)
  end.
Fixpoint prod (lens : list nat) : nat :=
  match lens with [] => 1%nat | n :: l => (n * prod l)%nat end.

Lemma prod_pos lens : Forall (fun n => 0 < n)%nat lens -> (0 < prod lens)%nat.
Proof. induction 1; cbn; nia. Qed.

Lemma odo_step_digits lens : Forall (fun n => 0 < n)%nat lens ->
  forall k, (k < prod lens)%nat ->
  odo_step lens (digits lens k) = if Nat.ltb (S k) (prod lens) then Some (digits lens (S k)) else None.
Proof.
  induction 1 as [|n lens Hn Hl IH]; intros k Hk.
  - cbn in *. replace k with O by lia. reflexivity.
  - cbn [digits odo_step prod] in *.
    assert (Hd : (k / n < prod lens)%nat) by (apply Nat.div_lt_upper_bound; lia).
    pose proof (Nat.div_mod k n ltac:(lia)) as E.
    pose proof (Nat.mod_upper_bound k n ltac:(lia)) as Hm.
    destruct (Nat.eqb_spec (k mod n) (n - 1)) as [Hlast|Hlast].
    + assert (E1 : (S k / n = S (k / n))%nat /\ (S k mod n = 0)%nat).
      { assert (S k = n * S (k / n) + 0)%nat by lia. split.
        - symmetry. apply Nat.div_unique with (r := 0%nat); lia.
        - symmetry. apply Nat.mod_unique with (q := S (k / n)); lia. }
      destruct E1 as [E1 E2]. rewrite IH by exact Hd. rewrite E1, E2.
      destruct (Nat.ltb_spec (S (k / n)) (prod lens)), (Nat.ltb_spec (S k) (n * prod lens)); try reflexivity; exfalso; nia.
    + assert (E1 : (S k / n = k / n)%nat /\ (S k mod n = S (k mod n))%nat).
      { split.
        - symmetry. apply Nat.div_unique with (r := S (k mod n)); lia.
        - symmetry. apply Nat.mod_unique with (q := (k / n)%nat); lia. }
      destruct E1 as [-> ->].
      destruct (Nat.ltb_spec (S k) (n * prod lens)); [reflexivity|]. exfalso; nia.
Qed.

Lemma odo_loop_digits lens : Forall (fun n => 0 < n)%nat lens ->
  forall m fuel k, (k < prod lens)%nat -> (prod lens = S k + m)%nat -> (m < fuel)%nat ->
  odo_loop fuel lens (digits lens k) = Ok (map (digits lens) (seq (S k) m)).
Proof.
  intros Hl. induction m as [|m IH]; intros fuel k Hk E Hf; (destruct fuel as [|f]; [lia|]); cbn [odo_loop];
    rewrite odo_step_digits by assumption.
  - rewrite (proj2 (Nat.ltb_ge _ _)) by lia. reflexivity.
  - rewrite (proj2 (Nat.ltb_lt _ _)) by lia. rewrite (IH f (S k)) by lia. reflexivity.
Qed.

Lemma digits_0 lens : digits lens 0 = map (fun _ => O) lens.
Proof.
  induction lens as [|n lens IH]; [reflexivity|]. cbn [digits map].
  destruct n as [|n]; [cbn; now rewrite IH|].
  rewrite Nat.mod_0_l, Nat.div_0_l by lia. now rewrite IH.
Qed.
Lemma digits_lt lens k : Forall (fun n => 0 < n)%nat lens -> Forall2 lt (digits lens k) lens.
Proof.
  intros H; revert k; induction H as [|n lens Hn _ IH]; intros k; cbn; constructor; [|apply IH].
  apply Nat.mod_upper_bound. lia.
Qed.
Lemma digits_surj lens : forall idx, Forall2 lt idx lens -> exists k, (k < prod lens)%nat /\ digits lens k = idx.
Proof.
  induction lens as [|n lens IH]; intros idx H; inversion H; subst.
  - exists O. cbn. auto.
  - destruct (IH _ H4) as (k & Hk & <-). exists (x + n * k)%nat. cbn [prod digits]. split; [nia|].
    assert (E1 : ((x + n * k) mod n = x)%nat) by (symmetry; apply Nat.mod_unique with (q := k); lia).
    assert (E2 : ((x + n * k) / n = k)%nat) by (symmetry; apply Nat.div_unique with (r := x); lia).
    now rewrite E1, E2.
Qed.
Lemma digits_inj lens : Forall (fun n => 0 < n)%nat lens -> forall j k, (j < prod lens)%nat -> (k < prod lens)%nat ->
  digits lens j = digits lens k -> j = k.
Proof.
  induction 1 as [|n lens Hn Hl IH]; intros j k Hj Hk E; cbn [prod digits] in *; [lia|].
  injection E as E1 E2. apply IH in E2; try (apply Nat.div_lt_upper_bound; lia).
  rewrite (Nat.div_mod j n), (Nat.div_mod k n) by lia. congruence.
Qed.

(** choices: the members picked at an index vector *)
Fixpoint choice (vals : list (list pystr)) (idx : list nat) : list pystr :=
  match vals, idx with
  | v :: vals', i :: idx' => nth i v [] :: choice vals' idx'
  | _, _ => []
  end.

Definition no_backslash (vals : list (list pystr)) : Prop :=
  Forall (Forall (fun x => forall t, x <> 92 :: t)) vals.

Lemma expand1_ok x : (forall t, x <> 92 :: t) -> expand1 x = Ok x.
Proof.
  intros H. unfold expand1. destruct x as [|c x]; [reflexivity|].
  destruct (N.eq_dec c 92) as [->|Hc]; [now elim (H x)|].
  destruct c as [|p]; [reflexivity|].
  repeat (try reflexivity; destruct p as [p|p|]; try reflexivity; try congruence).
Qed.

Lemma pick_choice vals : no_backslash vals -> forall idx,
  Forall2 lt idx (map (@length pystr) vals) -> pick vals idx = Ok (concat (choice vals idx)).
Proof.
  induction 1 as [|v vals Hv _ IH]; intros idx H; cbn [map] in H; inversion H; subst; [reflexivity|].
  cbn [pick choice concat].
  rewrite (nth_error_nth' v []) by assumption.
  rewrite expand1_ok.
  - cbn [bind]. rewrite IH by assumption. reflexivity.
  - rewrite Forall_forall in Hv. apply Hv. now apply nth_In.
Qed.
Lemma mapM_ok {A B} (f : A -> res B) g l : (forall x, In x l -> f x = Ok (g x)) -> mapM f l = Ok (map g l).
Proof.
  induction l as [|x l IH]; intros H; [reflexivity|]. cbn. rewrite H by now left. cbn [bind].
  rewrite IH; [reflexivity|]. intros y Hy. apply H. now right.
Qed.

Lemma choice_in vals : forall idx, Forall2 lt idx (map (@length pystr) vals) ->
  Forall2 (@In pystr) (choice vals idx) vals.
Proof.
  induction vals as [|v vals IH]; intros idx H; cbn [map] in H; inversion H; subst; constructor; auto.
  now apply nth_In.
Qed.
Lemma choice_surj vals : forall ch, Forall2 (@In pystr) ch vals ->
  exists idx, Forall2 lt idx (map (@length pystr) vals) /\ choice vals idx = ch.
Proof.
  induction vals as [|v vals IH]; intros ch H; inversion H; subst.
  - exists []. split; [constructor|reflexivity].
  - destruct (IH _ H4) as (idx & Hi & <-).
    apply In_nth with (d := []) in H3 as (i & Hl & Hn).
    exists (i :: idx). split; [now constructor|]. cbn. now rewrite Hn.
Qed.
Lemma choice_inj vals : Forall (@NoDup pystr) vals -> forall i j,
  Forall2 lt i (map (@length pystr) vals) -> Forall2 lt j (map (@length pystr) vals) ->
  choice vals i = choice vals j -> i = j.
Proof.
  induction 1 as [|v vals Hv _ IH]; intros i j Hi Hj E; cbn [map] in *; inversion Hi; inversion Hj; subst; [reflexivity|].
  cbn in E. injection E as E1 E2. f_equal; [|now apply IH].
  now apply (NoDup_nth v []).
Qed.

Lemma NoDup_map_in {A B} (f : A -> B) l :
  (forall x y, In x l -> In y l -> f x = f y -> x = y) -> NoDup l -> NoDup (map f l).
Proof.
  intros H Hl. induction Hl as [|x l Hx Hl IH]; cbn; constructor.
  - intros Hin. apply in_map_iff in Hin as (y & E & Hy). apply H in E; [subst; contradiction|now right|now left].
  - apply IH. intros a b Ha Hb. apply H; now right.
Qed.

Definition least_in (x : pystr) (S : list pystr) : Prop := In x S /\ forall y, In y S -> strleb x y = true.

Lemma flatten_vals_ok vals fuel :
  Forall (fun v => v <> []) vals -> Forall (@NoDup pystr) vals -> no_backslash vals ->
  (prod (map (@length pystr) vals) <= fuel)%nat ->
  exists l, (do ix <- odo_loop fuel (map (@length pystr) vals) (map (fun _ => O) vals); mapM (pick vals) ix)
              = Ok (map (@concat N) l) /\ NoDup l /\
    forall ch, In ch l <-> Forall2 (@In pystr) ch vals /\ ch <> map (fun v => nth 0 v []) vals.
Proof.
  intros Hne Hnd Hbs Hf.
  set (lens := map (@length pystr) vals) in *.
  assert (Hpos : Forall (fun n => 0 < n)%nat lens).
  { unfold lens. apply Forall_map. eapply Forall_impl; [|exact Hne].
    intros [|x v] H; [congruence|cbn; lia]. }
  pose proof (prod_pos lens Hpos) as HP.
  replace (map (fun _ => O) vals) with (digits lens 0).
  2:{ rewrite digits_0. unfold lens. rewrite map_map. reflexivity. }
  rewrite odo_loop_digits with (m := (prod lens - 1)%nat) by (auto; lia). cbn [bind].
  assert (Hd : forall k, Forall2 lt (digits lens k) (map (@length pystr) vals)) by (intros; now apply digits_lt).
  exists (map (choice vals) (map (digits lens) (seq 1 (prod lens - 1)))).
  split; [|split].
  - rewrite (mapM_ok _ (fun i => concat (choice vals i))).
    + now rewrite (map_map (choice vals)).
    + intros i Hi. apply in_map_iff in Hi as (k & <- & _). apply pick_choice; auto.
  - rewrite map_map. apply NoDup_map_in; [|apply seq_NoDup].
    intros x y Hx Hy E. apply in_seq in Hx, Hy.
    apply choice_inj in E; auto. apply digits_inj in E; auto; lia.
  - assert (Hz : choice vals (digits lens 0) = map (fun v => nth 0 v []) vals).
    { rewrite digits_0. unfold lens. clear. induction vals as [|v vals IH]; [reflexivity|]. cbn. now rewrite IH. }
    intros ch. rewrite map_map, in_map_iff. split.
    + intros (k & <- & Hk). apply in_seq in Hk. split; [now apply choice_in|].
      rewrite <- Hz. intros E. apply choice_inj in E; auto. apply digits_inj in E; auto; lia.
    + intros [Hc Hn]. apply choice_surj in Hc as (idx & Hi & <-).
      apply digits_surj in Hi as (k & Hk & <-). fold lens in Hk. exists k. split; [reflexivity|].
      apply in_seq. destruct k as [|k]; [|lia]. exfalso. apply Hn. exact Hz.
Qed.

Lemma isort_head_least S : S <> [] -> least_in (nth 0 (isort strleb S) []) S.
Proof.
  intros H.
  pose proof (isort_perm strleb S) as P.
  pose proof (isort_sorted strleb strleb_total strleb_trans S) as Hs.
  apply Permutation_sym in P.
  destruct (isort strleb S) as [|x l] eqn:E.
  - apply Permutation_nil in P. congruence.
  - cbn. split; [apply (Permutation_in _ P); now left|].
    intros y Hy. apply (Permutation_in _ (Permutation_sym P)) in Hy.
    destruct Hy as [->|Hy]; [destruct (strleb_total y y); assumption|].
    inversion Hs as [|? ? ? Hall]; subst. rewrite Forall_forall in Hall. now apply Hall.
Qed.
Lemma least_unique x y S : least_in x S -> least_in y S -> x = y.
Proof. intros [A B] [C D]. apply strleb_antisym; auto. Qed.

Lemma us_flatten_ok ud s p :
  us_parse ud s = Ok p ->
  Forall (fun u => Forall (fun x => forall t, x <> 92 :: t) (us_items u)) p ->
  exists n, forall fuel, (n <= fuel)%nat ->
  exists l, us_flatten ud fuel s = Ok (map (@concat N) l) /\ NoDup l /\
    forall ch, In ch l <-> Forall2 (fun x u => In x (us_items u)) ch p /\ ~ Forall2 (fun x u => least_in x (us_items u)) ch p.
Proof.
  intros Hp Hb. pose proof (us_parse_wf ud s p Hp) as Hwf.
  set (vals := map (fun u => isort strleb (us_items u)) p).
  exists (prod (map (@length pystr) vals)). intros fuel Hf.
  destruct (flatten_vals_ok vals fuel) as (l & E & Hn & Hin); auto.
  - unfold vals. apply Forall_map. eapply Forall_impl; [|exact Hwf]. cbn. intros u [_ Hu] E.
    pose proof (isort_perm strleb (us_items u)) as P. rewrite E in P.
    apply Permutation_sym, Permutation_nil in P. contradiction.
  - unfold vals. apply Forall_map. eapply Forall_impl; [|exact Hwf]. cbn. intros u [Hu _].
    eapply Permutation_NoDup; [apply isort_perm|exact Hu].
  - unfold vals, no_backslash. apply Forall_map. eapply Forall_impl; [|exact Hb]. cbn. intros u Hu.
    rewrite Forall_forall in *. intros x Hx. apply Hu. now apply in_isort in Hx.
  - exists l. split; [|split; [exact Hn|]].
    + unfold us_flatten. rewrite Hp. cbn [bind]. exact E.
    + intros ch. rewrite Hin. clear - Hwf.
      assert (A : Forall2 (@In pystr) ch vals <-> Forall2 (fun x u => In x (us_items u)) ch p).
      { unfold vals. clear. revert p. induction ch as [|x ch IH]; intros [|u p]; cbn [map];
          split; intros H; inversion H; subst; constructor; try (now apply IH).
        - now apply in_isort in H3.
        - now apply in_isort. }
      rewrite A. split; intros [B C]; split; auto; intros D; apply C.
      * clear - D Hwf. unfold vals. induction D as [|x u ch p Hx D IH]; [reflexivity|].
        inversion Hwf as [|? ? [_ Hu] Hw]; subst. cbn. f_equal; [|now apply IH].
        eapply least_unique; [exact Hx|]. now apply isort_head_least.
      * subst ch. clear - Hwf. unfold vals. induction Hwf as [|u p [_ Hu] Hw IH]; cbn; constructor; [|exact IH].
        now apply isort_head_least.
Qed.
