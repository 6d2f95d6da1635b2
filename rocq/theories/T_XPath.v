(** C68: the path of an element, and taking away what a path finds. *)
From Coq Require Import String Sorting.Sorted.
From Verif Require Import Py PyFacts M_LdmlBase M_Collation M_Serialize M_Normalise M_Drafts M_Paths M_XPath.
From Verif Require Import T_LdmlHash T_Drafts T_Paths T_PathText.
Local Open Scope list_scope.
Local Open Scope nat_scope.

(** * Specification *)
(** the elements on the way from the root to a place, without the root *)
Fixpoint on_the_way (n : lnode) (w : list nat) : list lnode :=
  match w with
  | [] => []
  | i :: w' => match nth_error (lkids n) i with Some c => c :: on_the_way c w' | None => [] end
  end.
Definition reached (n : lnode) (w : list nat) : Prop := at_place n (map K w) <> None.
(** [c'] has the tag of [c] and its distinguishing attributes; a missing attribute counts as empty *)
Definition covers (m : meta) (usedrafts : bool) (c c' : lnode) : Prop :=
  ltag c' = ltag c /\ forall k v, is_dist m usedrafts (ltag c) k = true -> lget c k = Some v -> attr_is c' k v.
(** names and values that a path can hold *)
Definition clear_name (ws : N -> bool) (ns : list (pystr * pystr)) (c : lnode) : Prop :=
  ltag c <> [] /\ ltag c <> lit "." /\ without [47; 91]%N (ltag c) /\ reverse_localns ns (ltag c) = ltag c /\
  NoDup (dkeys (lattrs c)) /\
  forall k v, lget c k = Some v ->
    without [47; 93; 61; 10]%N k /\ (forall k' x, k = k' ++ [x] -> ws x = false) /\ reverse_localns ns k = k /\
    without [47; 93; 10]%N v.

(** the document without the elements at some places *)
Fixpoint cut (n : lnode) (dead : list nat -> bool) : lnode :=
  let '(LNode t a x h c al kids) := n in
  LNode t a x h c al
    ((fix go (i : nat) (l : list lnode) : list lnode :=
        match l with
        | [] => []
        | k :: l' => (if dead [i] then [] else [cut k (fun w => dead (i :: w))]) ++ go (S i) l'
        end) 0 kids).
Definition mem_place (l : list (list nat)) (w : list nat) : bool := if in_dec (list_eq_dec Nat.eq_dec) w l then true else false.

(** * The path of an element *)
Definition node_step (m : meta) (usedrafts : bool) (c : lnode) : pathstep := (ltag c, own_tests m usedrafts c).
Lemma own_step_show m ud c : own_step m ud c = show_step (node_step m ud c).
Proof. reflexivity. Qed.
Lemma xpath_down_path m ud w : forall n up own, reached n w -> Forall (fun c => ltag c <> []) (on_the_way n w) ->
  xpath_down m ud n up own (map K w) = Some (match on_the_way n w with [] => own | cs =>
    (match own with [] => [] | _ => own ++ lit "/" end) ++ show_path (map (node_step m ud) cs) end).
Proof.
  induction w as [|i w IH]; intros n up own R F; cbn [map xpath_down on_the_way] in *; [reflexivity|].
  unfold reached in R. cbn [map at_place] in R. destruct (nth_error (lkids n) i) as [c|]; [|congruence]. inversion F as [|? ? Nc F']; subst.
  rewrite IH by assumption. f_equal. cbn [map]. unfold then_step. rewrite own_step_show.
  destruct (on_the_way c w) as [|c2 cs]; [unfold show_path; cbn [map join]; reflexivity|].
  set (pre := match own with [] => [] | _ => own ++ lit "/" end).
  assert (E : show_path (node_step m ud c :: map (node_step m ud) (c2 :: cs)) = show_step (node_step m ud c) ++ lit "/" ++ show_path (map (node_step m ud) (c2 :: cs))) by reflexivity.
  rewrite E. destruct (pre ++ show_step (node_step m ud c)) eqn:X.
  - apply app_eq_nil in X as [_ X]. apply app_eq_nil in X as [X _]. contradiction.
  - rewrite <- X, <- !app_assoc. reflexivity.
Qed.

Lemma tests_spec m ud c k v : NoDup (dkeys (lattrs c)) ->
  (In (k, v) (own_tests m ud c) <-> is_dist m ud (ltag c) k = true /\ lget c k = Some v).
Proof.
  intro ND. unfold own_tests. rewrite in_map_iff. split.
  - intros (k' & E & H). injection E as -> <-. apply filter_In in H as [H D]. split; [exact D|]. unfold sortedattrs in H. apply in_isort in H.
    unfold lget in *. apply (dget_Some_iff _ streq_spec) in H as (v & ->). reflexivity.
  - intros [D E]. exists k. rewrite E. split; [reflexivity|]. apply filter_In. split; [|exact D]. unfold sortedattrs. apply in_isort.
    apply (dget_Some_iff _ streq_spec). exists v. exact E.
Qed.
Lemma tests_nodup m ud c : NoDup (dkeys (lattrs c)) -> NoDup (map fst (own_tests m ud c)).
Proof.
  intro ND. unfold own_tests. rewrite map_map. cbn [fst]. rewrite map_id. apply NoDup_filter. unfold sortedattrs.
  eapply Permutation_NoDup; [apply isort_perm|exact ND].
Qed.

Section Find.
  Variable ws : N -> bool.
  Variable hasher : pystr -> Z.
  Variable m : meta.
  Variable dd : pystr.
  Variable useDrafts : bool.
  Variable ud uid : option pystr.
  Variable ns : list (pystr * pystr).
  Variable usedrafts : bool.
  Hypothesis quote_no_space : ws 34%N = false.
  Hypothesis at_no_space : ws 64%N = false.
  Notation findall := (findall ws hasher m dd useDrafts ud uid ns).
  Notation find := (find ws hasher m dd useDrafts ud uid ns).
  Notation as_xpath := (as_xpath m usedrafts).
  Notation clear := (clear_name ws ns).

  Lemma clear_step c : clear c -> expanded ns (node_step m usedrafts c) = node_step m usedrafts c /\ writable ws (node_step m usedrafts c) /\
    NoDup (dkeys (snd (expanded ns (node_step m usedrafts c)))).
  Proof.
    intros (N0 & _ & Wt & Rt & ND & At).
    assert (X : expanded ns (node_step m usedrafts c) = node_step m usedrafts c).
    { unfold expanded, node_step. cbn [fst snd]. rewrite Rt. f_equal. rewrite <- (map_id (own_tests m usedrafts c)) at 2.
      apply map_ext_in. intros [k v] H. apply tests_spec in H as [_ H]; [|exact ND]. cbn [fst snd]. f_equal. apply (At k v H). }
    split; [exact X|]. split.
    - split; [exact N0|]. split; [exact Wt|]. intros k v H. apply tests_spec in H as [_ H]; [|exact ND]. destruct (At k v H) as (H1 & H2 & _ & H3). auto.
    - rewrite X. apply tests_nodup. exact ND.
  Qed.
  Lemma xpath_steps root w : reached root w -> w <> [] -> Forall clear (on_the_way root w) ->
    exists path, as_xpath root (map K w) = Some path /\ read_path ws ns path = Ok (map (node_step m usedrafts) (on_the_way root w)).
  Proof.
    intros R Nw F. assert (Ne : on_the_way root w <> []).
    { destruct w as [|i w]; [congruence|]. cbn [on_the_way]. unfold reached in R. cbn in R. destruct (nth_error (lkids root) i); congruence. }
    exists (show_path (map (node_step m usedrafts) (on_the_way root w))). split.
    - unfold M_XPath.as_xpath. rewrite xpath_down_path; [|exact R|eapply Forall_impl; [|exact F]; intros c H; apply H].
      destruct (on_the_way root w); [congruence|reflexivity].
    - rewrite C26_read_back.
      + rewrite map_map. f_equal. apply map_ext_in. intros c Hc. rewrite Forall_forall in F. apply (clear_step c (F c Hc)).
      + exact quote_no_space.
      + exact at_no_space.
      + destruct (on_the_way root w); [congruence|discriminate].
      + apply Forall_map. eapply Forall_impl; [|exact F]. intros c Hc. destruct (clear_step c Hc) as (_ & A & B). auto.
  Qed.
  Lemma walk_covers w : forall n n' w', reached n w -> Forall clear (on_the_way n w) ->
    (walk n' (map (node_step m usedrafts) (on_the_way n w)) w' <->
     reached n' w' /\ Forall2 (covers m usedrafts) (on_the_way n w) (on_the_way n' w')).
  Proof.
    induction w as [|i w IH]; intros n n' w' R F; cbn [on_the_way map] in *.
    - split.
      + intro H. inversion H; subst. split; [unfold reached; cbn; discriminate|constructor].
      + intros [R' F2]. destruct w' as [|j w']; [constructor|]. unfold reached in R'. cbn in *. destruct (nth_error (lkids n') j); [inversion F2|congruence].
    - unfold reached in R. cbn [map at_place] in R. destruct (nth_error (lkids n) i) as [c|] eqn:Ei; [|congruence].
      cbn [map] in *. inversion F as [|? ? Hc F']; subst. destruct Hc as (_ & Nd & _ & _ & ND & _). split.
      + intro H. inversion H as [| |? ? ? ? j c' w2 _ Ej Et Ha Hw]; subst; [congruence|].
        destruct (proj1 (IH c c' w2 R F') Hw) as [R2 F2]. split.
        * unfold reached. cbn [map at_place]. rewrite Ej. exact R2.
        * cbn [on_the_way]. rewrite Ej. constructor; [|exact F2]. split; [exact Et|]. intros k v D E. apply Ha. apply tests_spec; auto.
      + intros [R' F2]. destruct w' as [|j w']; [inversion F2|]. unfold reached in R'. cbn [map at_place] in R'. cbn [on_the_way] in F2.
        destruct (nth_error (lkids n') j) as [c'|] eqn:Ej; [|congruence]. inversion F2 as [|? ? ? ? [Et Ha] F2']; subst.
        apply walk_step with (c := c'); auto.
        * intros k v H. apply tests_spec in H as [D E]; auto.
        * apply IH; [exact R|exact F'|]. split; [exact R'|exact F2'].
  Qed.

  (** ** C68: the path of an element finds it, and with it exactly the elements that have the same tags and
      the same distinguishing attributes (and perhaps more) all the way down *)
  Theorem C68_path_finds : forall root w, reached root w -> w <> [] -> Forall clear (on_the_way root w) ->
    exists path l, as_xpath root (map K w) = Some path /\ findall root [] path = Ok (root, map (map K) l) /\
      In w l /\ StronglySorted before_in_doc l /\
      forall w', In w' l <-> reached root w' /\ Forall2 (covers m usedrafts) (on_the_way root w) (on_the_way root w').
  Proof.
    intros root w R Nw F. destruct (xpath_steps root w R Nw F) as (path & E & RP).
    destruct (C26_found ws hasher m dd useDrafts ud uid ns root [] root path _ None None None None eq_refl RP) as (l & EF & Hl & S).
    assert (SP : forall w', In w' l <-> reached root w' /\ Forall2 (covers m usedrafts) (on_the_way root w) (on_the_way root w')).
    { intro w'. rewrite Hl. now apply walk_covers. }
    exists path, l. split; [exact E|]. split; [exact EF|]. split; [|split; [exact S|exact SP]].
    apply SP. split; [exact R|]. clear. induction (on_the_way root w) as [|c cs IH]; constructor; [|exact IH].
    split; [reflexivity|]. intros k v _ H. now left.
  Qed.
  (** It finds nothing else when no sibling on the way has what distinguishes the element. *)
  Fixpoint alone (n : lnode) (w : list nat) : Prop :=
    match w with
    | [] => True
    | i :: w' => forall c, nth_error (lkids n) i = Some c ->
        (forall j c', nth_error (lkids n) j = Some c' -> covers m usedrafts c c' -> j = i) /\ alone c w'
    end.
  Theorem C68_path_unique : forall root w, reached root w -> w <> [] -> Forall clear (on_the_way root w) -> alone root w ->
    exists path, as_xpath root (map K w) = Some path /\ findall root [] path = Ok (root, [map K w]) /\ find root [] path = Ok (root, Some (map K w)).
  Proof.
    intros root w R Nw F Al. destruct (C68_path_finds root w R Nw F) as (path & l & E & EF & Hin & S & SP).
    assert (U : forall w', In w' l -> w' = w).
    { intros w' H. apply SP in H as [R' F2]. clear - R R' F2 Al. revert w' root R R' F2 Al. induction w as [|i w IH]; intros w' n R R' F2 Al.
      - cbn in F2. destruct w' as [|j w']; [reflexivity|]. unfold reached in R'. cbn in *. destruct (nth_error (lkids n) j); [inversion F2|congruence].
      - unfold reached in R, R'. cbn [map at_place on_the_way alone] in *. destruct (nth_error (lkids n) i) as [c|] eqn:Ei; [|congruence].
        destruct w' as [|j w']; [inversion F2|]. cbn [map at_place on_the_way] in *. destruct (nth_error (lkids n) j) as [c'|] eqn:Ej; [|congruence].
        inversion F2 as [|? ? ? ? C F2']; subst. destruct (Al c eq_refl) as [A1 A2]. pose proof (A1 j c' Ej C) as ->. rewrite Ei in Ej. injection Ej as <-.
        f_equal. apply (IH w' c); auto. }
    assert (l = [w]) as ->.
    { destruct l as [|a l]; [destruct Hin|]. pose proof (U a (or_introl eq_refl)) as ->. destruct l as [|b l]; [reflexivity|].
      pose proof (U b (or_intror (or_introl eq_refl))) as ->. inversion S as [|? ? _ FB]; subst. inversion FB as [|? ? B _]; subst.
      exfalso. clear - B. induction w; inversion B; subst; [lia|auto]. }
    exists path. split; [exact E|]. split; [exact EF|]. unfold M_Paths.find. rewrite EF. reflexivity.
  Qed.
End Find.

(** * Taking away *)
Fixpoint cut_kids (dead : list nat -> bool) (i : nat) (l : list lnode) : list lnode :=
  match l with
  | [] => []
  | k :: l' => (if dead [i] then [] else [cut k (fun w => dead (i :: w))]) ++ cut_kids dead (S i) l'
  end.
Lemma cut_eq n dead : cut n dead = set_kids n (cut_kids dead 0 (lkids n)).
Proof.
  destruct n as [t a x h c al kids]. cbn [cut set_kids lkids]. f_equal. generalize 0. induction kids as [|k kids IH]; intro i; [reflexivity|].
  cbn [cut_kids]. now rewrite <- IH.
Qed.
Fixpoint lnode_ind2 (P : lnode -> Prop) (H : forall n, Forall P (lkids n) -> P n) (n : lnode) : P n :=
  H n (let '(LNode _ _ _ _ _ _ ks) as n0 := n return Forall P (lkids n0) in
       (fix go (l : list lnode) : Forall P l :=
          match l with [] => Forall_nil P | k :: l' => Forall_cons k (lnode_ind2 P H k) (go l') end) ks).
Lemma cut_kids_ext i l : Forall (fun n => forall d1 d2, (forall w, w <> [] -> d1 w = d2 w) -> cut n d1 = cut n d2) l ->
  forall d1 d2, (forall w, w <> [] -> d1 w = d2 w) -> cut_kids d1 i l = cut_kids d2 i l.
Proof.
  intro F. revert i. induction F as [|k l Hk F IH]; intros i d1 d2 E; cbn [cut_kids]; [reflexivity|].
  rewrite (E [i]) by discriminate. rewrite (Hk (fun w => d1 (i :: w)) (fun w => d2 (i :: w))) by (intros; apply E; discriminate).
  now rewrite (IH (S i) d1 d2 E).
Qed.
Lemma cut_ext n : forall d1 d2, (forall w, w <> [] -> d1 w = d2 w) -> cut n d1 = cut n d2.
Proof.
  induction n as [n IH] using lnode_ind2. intros d1 d2 E. rewrite !cut_eq. f_equal. now apply cut_kids_ext.
Qed.
Lemma cut_none n : forall d, (forall w, d w = false) -> cut n d = n.
Proof.
  induction n as [n IH] using lnode_ind2. intros d E. rewrite cut_eq. replace (cut_kids d 0 (lkids n)) with (lkids n).
  - now destruct n.
  - generalize 0. induction IH as [|k l Hk F IH]; intro i; cbn [cut_kids]; [reflexivity|]. rewrite E, Hk by (intro; apply E). cbn. f_equal. apply IH.
Qed.
(** up to where nothing is dead, the children keep their indices *)
Lemma cut_kids_at d i l : forall s, (forall j, s <= j < s + i -> d [j] = false) ->
  forall c, nth_error l i = Some c -> d [s + i] = false ->
  nth_error (cut_kids d s l) i = Some (cut c (fun w => d (s + i :: w))).
Proof.
  revert l. induction i as [|i IH]; intros [|k l] s E c H D; try discriminate; cbn [cut_kids nth_error] in *.
  - injection H as ->. rewrite Nat.add_0_r in *. rewrite D. reflexivity.
  - rewrite (E s) by lia. cbn [app nth_error]. rewrite Nat.add_succ_r in *. rewrite <- Nat.add_succ_l in *. apply IH; auto. intros j Hj. apply E. lia.
Qed.
Definition or_place (w : list nat) (d : list nat -> bool) (u : list nat) : bool := if list_eq_dec Nat.eq_dec u w then true else d u.
Lemma cut_kids_remove d i l : forall s, (forall j, s <= j <= s + i -> d [j] = false) -> i < List.length l ->
  remove_nth i (cut_kids d s l) = cut_kids (or_place [s + i] d) s l.
Proof.
  revert l. induction i as [|i IH]; intros [|k l] s E H; cbn [List.length cut_kids] in *; try lia.
  - rewrite E by lia. rewrite Nat.add_0_r. unfold or_place at 1. destruct (list_eq_dec Nat.eq_dec [s] [s]) as [_|N]; [|congruence].
    cbn [app remove_nth]. assert (X : forall s' l', s < s' -> cut_kids d s' l' = cut_kids (or_place [s] d) s' l'); [|apply X; lia].
    clear. intros s' l'. revert s'. induction l' as [|k l' IH]; intros s' L; cbn [cut_kids]; [reflexivity|].
    rewrite <- IH by lia. unfold or_place at 1. destruct (list_eq_dec Nat.eq_dec [s'] [s]) as [X|_]; [injection X; lia|].
    destruct (d [s']); [reflexivity|]. f_equal. f_equal. apply cut_ext. intros w Nw. unfold or_place. destruct (list_eq_dec _ _ _) as [X|_]; [injection X as _ X; congruence|reflexivity].
  - rewrite E by lia. unfold or_place at 1. destruct (list_eq_dec Nat.eq_dec [s] [s + S i]) as [X|_]; [injection X; lia|]. rewrite E by lia.
    cbn [app remove_nth]. f_equal.
    + apply cut_ext. intros w Nw. unfold or_place. destruct (list_eq_dec _ _ _) as [X|_]; [injection X as _ X; congruence|reflexivity].
    + rewrite IH by (try lia; intros; apply E; lia). now rewrite Nat.add_succ_l, Nat.add_succ_r.
Qed.
Lemma cut_kids_replace d i l w : forall s, (forall j, s <= j <= s + i -> d [j] = false) -> w <> [] ->
  forall c, nth_error l i = Some c ->
  replace_nth i (cut c (fun u => or_place (s + i :: w) d (s + i :: u))) (cut_kids d s l) = cut_kids (or_place (s + i :: w) d) s l.
Proof.
  revert l. induction i as [|i IH]; intros [|k l] s E Nw c H; try discriminate; cbn [cut_kids nth_error] in *.
  - injection H as ->. rewrite E by lia. rewrite Nat.add_0_r. unfold or_place at 2. destruct (list_eq_dec Nat.eq_dec [s] (s :: w)) as [X|_]; [injection X as X; congruence|].
    rewrite E by lia. cbn [app replace_nth]. f_equal.
    assert (X : forall s' l', s < s' -> cut_kids d s' l' = cut_kids (or_place (s :: w) d) s' l'); [|apply X; lia].
    clear. intros s' l'. revert s'. induction l' as [|k l' IH]; intros s' L; cbn [cut_kids]; [reflexivity|].
    rewrite <- IH by lia. unfold or_place at 1. destruct (list_eq_dec Nat.eq_dec [s'] (s :: w)) as [X|_]; [injection X; lia|].
    destruct (d [s']); [reflexivity|]. f_equal. f_equal. apply cut_ext. intros u Nu. unfold or_place. destruct (list_eq_dec _ _ _) as [X|_]; [injection X; lia|reflexivity].
  - rewrite E by lia. unfold or_place at 2. destruct (list_eq_dec Nat.eq_dec [s] (s + S i :: w)) as [X|_]; [injection X; lia|]. rewrite E by lia.
    cbn [app replace_nth]. f_equal.
    + apply cut_ext. intros u Nu. unfold or_place. destruct (list_eq_dec _ _ _) as [X|_]; [injection X; lia|reflexivity].
    + rewrite Nat.add_succ_r, <- Nat.add_succ_l. apply IH; auto. intros; apply E; lia.
Qed.

(** taking away the first of the places, after the others *)
Fixpoint take (n : lnode) (w : list nat) : lnode :=
  match w with
  | [] => n
  | [i] => set_kids n (remove_nth i (lkids n))
  | i :: w' => match nth_error (lkids n) i with Some c => set_kids n (replace_nth i (take c w') (lkids n)) | None => n end
  end.
Lemma take_cons n i w : w <> [] -> take n (i :: w) = match nth_error (lkids n) i with Some c => set_kids n (replace_nth i (take c w) (lkids n)) | None => n end.
Proof. destruct w; [congruence|reflexivity]. Qed.
Lemma lkids_set n k : lkids (set_kids n k) = k.
Proof. now destruct n. Qed.
Lemma set_set n k k' : set_kids (set_kids n k) k' = set_kids n k'.
Proof. now destruct n. Qed.
Lemma take_cut w : forall n d, reached n w -> w <> [] -> (forall u, d u = true -> before_in_doc w u) -> take (cut n d) w = cut n (or_place w d).
Proof.
  induction w as [|i w IH]; intros n d R Nw B; [congruence|]. unfold reached in R. cbn [map at_place] in R.
  destruct (nth_error (lkids n) i) as [c|] eqn:Ei; [|congruence].
  assert (L : forall j, 0 <= j <= 0 + i -> d [j] = false).
  { intros j Hj. destruct (d [j]) eqn:D; [|reflexivity]. apply B in D. inversion D as [? ? ? ? X|? ? ? X]; subst; [lia|inversion X]. }
  destruct w as [|i2 w].
  - cbn [take]. rewrite !cut_eq, lkids_set, set_set. f_equal. apply (cut_kids_remove d i (lkids n) 0 L).
    apply nth_error_Some. congruence.
  - rewrite take_cons by discriminate. rewrite !cut_eq, lkids_set.
    rewrite (cut_kids_at d i (lkids n) 0) with (c := c); [|intros j Hj; apply L; lia|exact Ei|apply L; lia].
    rewrite set_set. f_equal. rewrite IH; [|exact R|discriminate|].
    + pose proof (cut_kids_replace d i (lkids n) (i2 :: w) 0 L ltac:(discriminate) c Ei) as X0. cbn [Nat.add] in X0. rewrite <- X0. f_equal. apply cut_ext. intros u Nu.
      unfold or_place. cbn [Nat.add]. destruct (list_eq_dec Nat.eq_dec u (i2 :: w)) as [->|N]; destruct (list_eq_dec Nat.eq_dec _ _) as [X|X]; try reflexivity; [congruence|].
      injection X as X. congruence.
    + intros u D. apply B in D. inversion D; subst; [lia|assumption].
Qed.
Lemma take_all l : forall n, StronglySorted before_in_doc l -> Forall (fun w => reached n w /\ w <> []) l ->
  fold_right (fun w t => take t w) n l = cut n (mem_place l).
Proof.
  induction l as [|w l IH]; intros n S F; cbn [fold_right].
  - symmetry. apply cut_none. intro w. reflexivity.
  - inversion S as [|? ? S' B]; subst. inversion F as [|? ? [R Nw] F']; subst. rewrite IH by assumption. rewrite take_cut; auto.
    + apply cut_ext. intros u Nu. unfold or_place, mem_place. destruct (list_eq_dec Nat.eq_dec u w) as [->|N].
      * destruct (in_dec _ w (w :: l)) as [_|X]; [reflexivity|]. exfalso. apply X. now left.
      * destruct (in_dec _ u l) as [H|H]; destruct (in_dec _ u (w :: l)) as [H2|H2]; try reflexivity; exfalso.
        -- apply H2. now right.
        -- destruct H2; congruence.
    + intros u H. unfold mem_place in H. destruct (in_dec _ u l) as [X|]; [|discriminate]. rewrite Forall_forall in B. auto.
Qed.
Lemma reached_cut w : forall n d, reached n w -> (forall u, d u = true -> before_in_doc w u) -> reached (cut n d) w.
Proof.
  induction w as [|i w IH]; intros n d R B; [unfold reached; cbn; discriminate|]. unfold reached in *. cbn [map at_place] in *.
  destruct (nth_error (lkids n) i) as [c|] eqn:Ei; [|congruence].
  assert (L : forall j, j <= i -> d [j] = false).
  { intros j Hj. destruct (d [j]) eqn:D; [|reflexivity]. apply B in D. inversion D as [? ? ? ? X|? ? ? X]; subst; [lia|inversion X]. }
  rewrite cut_eq, lkids_set. rewrite (cut_kids_at d i (lkids n) 0) with (c := c); [|intros j Hj; apply L; lia|exact Ei|apply L; cbn; lia].
  apply IH; [exact R|]. intros u D. apply B in D. cbn [Nat.add] in D. inversion D; subst; [lia|assumption].
Qed.
Lemma put_put n p x y : at_place n p <> None -> put_at (put_at n p x) p y = put_at n p y.
Proof.
  revert n. induction p as [|[i|k] p IH]; intros n H; cbn [put_at at_place] in *; [reflexivity| |].
  - destruct (nth_error (lkids n) i) as [c|] eqn:E; [|congruence]. rewrite lkids_set. 
    assert (X : nth_error (replace_nth i (put_at c p x) (lkids n)) i = Some (put_at c p x)).
    { clear - E. revert i E. induction (lkids n) as [|k l IH]; intros [|i] E; try discriminate; cbn in *; auto. }
    rewrite X, IH by exact H. rewrite set_set. f_equal.
    clear. generalize (lkids n) as l. induction i as [|i IH]; intros [|k l]; cbn; try reflexivity. f_equal. apply IH.
  - destruct n as [t a tx h ch al ks]. cbn [lalts set_alts] in *. destruct al as [alts|]; [|congruence]. destruct (dget streq alts k) as [c|] eqn:E; [|congruence].
    cbn [lalts set_alts]. rewrite (dget_dset_same _ streq_spec). rewrite IH by exact H. f_equal. f_equal.
    clear. induction alts as [|[k' v] alts IH]; cbn [dset].
    + rewrite streq_refl. reflexivity.
    + destruct (streq_spec k k') as [->|N]; cbn [dset]; [now rewrite streq_refl|]. destruct (streq_spec k k'); [contradiction|]. now rewrite IH.
Qed.
Lemma at_put n p x q : at_place n p <> None -> at_place (put_at n p x) (p ++ q) = at_place x q.
Proof.
  revert n. induction p as [|[i|k] p IH]; intros n H; cbn [put_at at_place app] in *; [reflexivity| |].
  - destruct (nth_error (lkids n) i) as [c|] eqn:E; [|congruence]. rewrite lkids_set.
    assert (X : nth_error (replace_nth i (put_at c p x) (lkids n)) i = Some (put_at c p x)).
    { clear - E. revert i E. induction (lkids n) as [|k l IH]; intros [|i] E; try discriminate; cbn in *; auto. }
    rewrite X. now apply IH.
  - destruct n as [t a tx h ch al ks]. cbn [lalts set_alts] in *. destruct al as [alts|]; [|congruence]. destruct (dget streq alts k) as [c|] eqn:E; [|congruence].
    cbn [lalts set_alts]. rewrite (dget_dset_same _ streq_spec). now apply IH.
Qed.
Lemma put_app n p q x c : at_place n p = Some c -> put_at n (p ++ q) x = put_at n p (put_at c q x).
Proof.
  revert n. induction p as [|[i|k] p IH]; intros n H; cbn [put_at at_place app] in *; [congruence| |].
  - destruct (nth_error (lkids n) i) as [d|]; [|congruence]. now rewrite IH.
  - destruct (lalts n) as [alts|]; [|congruence]. destruct (dget streq alts k) as [d|]; [|congruence]. now rewrite IH.
Qed.
Lemma take_snoc w : forall n i c, at_place n (map K w) = Some c -> take n (w ++ [i]) = put_at n (map K w) (set_kids c (remove_nth i (lkids c))).
Proof.
  induction w as [|j w IH]; intros n i c H; cbn [map at_place app put_at] in *.
  - injection H as ->. reflexivity.
  - rewrite take_cons by (destruct w; discriminate). destruct (nth_error (lkids n) j) as [d|]; [|congruence]. now rewrite (IH d i c).
Qed.
Lemma remove_below root base x w : at_place root base <> None -> reached x w -> w <> [] ->
  remove_at (put_at root base x) (below base w) = Ok (put_at root base (take x w)).
Proof.
  intros Hb R Nw. destruct (exists_last Nw) as (v & i & ->). unfold remove_at, below. rewrite map_app. cbn [map].
  rewrite app_assoc, rev_unit, rev_involutive. rewrite at_put by exact Hb.
  unfold reached in R. rewrite map_app, at_place_app in R. destruct (at_place x (map K v)) as [c|] eqn:E; [|congruence].
  f_equal. rewrite (take_snoc v x i c E).
  rewrite (put_app (put_at root base x) base (map K v) _ x).
  - now rewrite put_put.
  - rewrite <- (app_nil_r base) at 2. now rewrite at_put.
Qed.
Lemma put_same root : forall base n, at_place root base = Some n -> put_at root base n = root.
Proof.
  intros base. revert root. induction base as [|[i|k] p IH]; intros root n H; cbn [put_at at_place] in *; [congruence| |].
  - destruct (nth_error (lkids root) i) as [c|] eqn:E; [|congruence]. rewrite (IH c n H). replace (replace_nth i c (lkids root)) with (lkids root); [now destruct root|].
    clear - E. revert i E. induction (lkids root) as [|k l IH]; intros [|i] E; try discriminate; cbn in *; [congruence|]. f_equal. now apply IH.
  - destruct root as [t a tx h ch al ks]. cbn [lalts set_alts] in *. destruct al as [alts|]; [|congruence]. destruct (dget streq alts k) as [c|] eqn:E; [|congruence].
    rewrite (IH c n H). f_equal. f_equal. clear - E. induction alts as [|[k' v] alts IH]; [discriminate|]. cbn [dget dset] in *.
    destruct (streq_spec k k') as [->|N]; [congruence|]. f_equal. now apply IH.
Qed.

Lemma walk_reached steps : forall n w, walk n steps w -> reached n w.
Proof.
  induction steps as [|st steps IH]; intros n w H; inversion H; subst; try (unfold reached; cbn; discriminate); [now apply IH|].
  unfold reached. cbn [map at_place]. match goal with E : nth_error _ _ = _ |- _ => rewrite E end. now apply IH.
Qed.

Section Gone.
  Variable ws : N -> bool.
  Variable hasher : pystr -> Z.
  Variable m : meta.
  Variable dd : pystr.
  Variable useDrafts : bool.
  Variable ud uid : option pystr.
  Variable ns : list (pystr * pystr).
  Notation findall := (findall ws hasher m dd useDrafts ud uid ns).
  Notation remove_path := (remove_path ws hasher m dd useDrafts ud uid ns).

  (** ** C68: exactly the elements the path finds are taken away *)
  Theorem C68_removed : forall root base n path steps text draft alt,
    at_place root base = Some n -> read_path ws ns path = Ok steps -> ~ walk n steps [] ->
    exists l, remove_path root base path text draft alt None = Ok (put_at root base (cut n (mem_place l)), map (below base) l) /\
      forall w, In w l <-> walk n steps w.
  Proof.
    intros root base n path steps text draft alt Hb RP NW.
    destruct (C26_found ws hasher m dd useDrafts ud uid ns root base n path steps text draft alt None Hb RP) as (l & E & Hl & S).
    exists l. split; [|exact Hl]. unfold M_XPath.remove_path. unfold ensure_path in E. cbn [negb] in E.
    destruct (process_path _ _ _ _ _ _ _ _ false text draft alt None root base path) as [[[r f] st]|]; cbn [bind] in *; [|discriminate].
    assert (r = root /\ f = map (below base) l) as [-> ->] by (destruct text; injection E as -> ->; auto).
    assert (F : Forall (fun w => reached n w /\ w <> []) l).
    { apply Forall_forall. intros w H. apply Hl in H. split; [eapply walk_reached; exact H|]. intros ->. contradiction. }
    assert (X : fold_right (fun p r => do t <- r; remove_at t p) (Ok root) (map (below base) l) = Ok (put_at root base (cut n (mem_place l)))).
    { rewrite <- take_all by assumption. clear E Hl. revert S F. induction l as [|w l IH]; intros S F; cbn [map fold_right].
      - now rewrite (put_same root base n Hb).
      - inversion S as [|? ? S' B]; subst. inversion F as [|? ? [R Nw] F']; subst. rewrite IH by assumption. cbn [bind].
        apply remove_below; [congruence| |exact Nw]. rewrite take_all by assumption. apply reached_cut; [exact R|].
        intros u H. unfold mem_place in H. destruct (in_dec _ u l) as [Y|]; [|discriminate]. rewrite Forall_forall in B. auto. }
    rewrite X. reflexivity.
  Qed.
  Lemma cut_kids_back d l : forall s j c', nth_error (cut_kids d s l) j = Some c' ->
    exists i c, nth_error l i = Some c /\ d [s + i] = false /\ c' = cut c (fun w => d (s + i :: w)).
  Proof.
    induction l as [|k l IH]; intros s j c' H; cbn [cut_kids] in H; [destruct j; discriminate|].
    destruct (d [s]) eqn:D; cbn [app] in H.
    - apply IH in H as (i & c & H1 & H2 & H3). exists (S i), c. rewrite Nat.add_succ_r. auto.
    - destruct j as [|j]; cbn [nth_error] in H.
      + injection H as <-. exists 0, k. rewrite Nat.add_0_r. auto.
      + apply IH in H as (i & c & H1 & H2 & H3). exists (S i), c. rewrite Nat.add_succ_r. auto.
  Qed.
  Lemma walk_cut steps : forall n d w', walk (cut n d) steps w' -> d [] = false -> exists w, walk n steps w /\ d w = false.
  Proof.
    induction steps as [|st steps IH]; intros n d w' H D; inversion H as [|? ? ? ? W|? tag attrs ? i c' w2 Nd Ej Et Ha W]; subst.
    - exists []. split; [constructor|exact D].
    - destruct (IH n d w' W D) as (w & H1 & H2). exists w. split; [now constructor|exact H2].
    - rewrite cut_eq, lkids_set in Ej. apply cut_kids_back in Ej as (k & c & Ek & Dk & ->). cbn [Nat.add] in *.
      destruct (IH c _ w2 W Dk) as (w & H1 & H2). exists (k :: w). split; [|exact H2].
      assert (XT : ltag (cut c (fun w => d (k :: w))) = ltag c) by (rewrite cut_eq; now destruct c).
      assert (XA : lattrs (cut c (fun w => d (k :: w))) = lattrs c) by (rewrite cut_eq; now destruct c).
      apply walk_step with (c := c); auto. intros a v Hin. specialize (Ha a v Hin). unfold attr_is, lget in *. now rewrite XA in Ha.
  Qed.
  (** nothing is found by the same path afterwards *)
  Theorem C68_gone : forall root base n path steps text draft alt,
    at_place root base = Some n -> read_path ws ns path = Ok steps -> ~ walk n steps [] ->
    exists root' found, remove_path root base path text draft alt None = Ok (root', found) /\ findall root' base path = Ok (root', []).
  Proof.
    intros root base n path steps text draft alt Hb RP NW.
    destruct (C68_removed root base n path steps text draft alt Hb RP NW) as (l & E & Hl).
    eexists. eexists. split; [exact E|]. set (root' := put_at root base (cut n (mem_place l))).
    assert (Hb' : at_place root' base = Some (cut n (mem_place l))).
    { unfold root'. rewrite <- (app_nil_r base) at 2. rewrite at_put by congruence. reflexivity. }
    destruct (C26_found ws hasher m dd useDrafts ud uid ns root' base _ path steps None None None None Hb' RP) as (l' & E' & Hl' & _).
    assert (l' = []) as ->; [|exact E']. destruct l' as [|w' l']; [reflexivity|]. exfalso.
    pose proof (proj1 (Hl' w') (or_introl eq_refl)) as W. apply walk_cut in W as (w & W & D).
    - apply Hl in W. unfold mem_place in D. destruct (in_dec _ w l); [discriminate|contradiction].
    - unfold mem_place. destruct (in_dec _ [] l) as [X|]; [|reflexivity]. apply Hl in X. contradiction.
  Qed.

  (** an alternate is found by a path, but cannot be taken away by one *)
  Theorem C68_alternates_raise : forall root base n path steps text draft alt md p found,
    at_place root base = Some n -> read_path ws ns path = Ok steps -> md <> MatchDraft ->
    ensure_path ws hasher m dd useDrafts ud uid ns root base path text draft alt None true (Some md) = Ok (root, p :: found) ->
    remove_path root base path text draft alt (Some md) = Raise ValueError.
  Proof.
    intros root base n path steps text draft alt md p found Hb RP Nm E.
    destruct (C26_matchdraft ws hasher m dd useDrafts ud uid ns root base n path steps text draft alt None md Hb RP) as (l & E' & Hl).
    rewrite E in E'. injection E' as <-.
    assert (X : forall q, In q (p :: found) -> exists q' k, q = q' ++ [A k]).
    { intros q H. apply Hl in H as (w & c & r & _ & _ & -> & W). destruct md; [congruence| |]; cbn in W; destruct W as (-> & _); eauto. }
    unfold M_XPath.remove_path. unfold ensure_path in E. cbn [negb] in E.
    destruct (process_path _ _ _ _ _ _ _ _ false text draft alt (Some md) root base path) as [[[r f] st]|]; cbn [bind] in *; [|discriminate].
    assert (r = root /\ f = p :: found) as [-> ->] by (destruct text; injection E as -> ->; auto).
    assert (Y : forall l : list place_in_doc, l <> [] -> (forall q, In q l -> exists q' k, q = q' ++ [A k]) ->
      fold_right (fun p r => do t <- r; remove_at t p) (Ok root) l = Raise ValueError).
    { clear. induction l as [|q l IH]; intros Nl H; [congruence|]. cbn [fold_right]. destruct l as [|q2 l].
      - cbn [fold_right bind]. destruct (H q (or_introl eq_refl)) as (q' & k & ->). unfold remove_at. rewrite rev_unit. reflexivity.
      - rewrite IH; [reflexivity|discriminate|]. intros x Hx. apply H. now right. }
    rewrite Y; [reflexivity|discriminate|exact X].
  Qed.
End Gone.

(** * Concrete cases *)
Definition xl (t : string) (a : list (pystr * pystr)) (k : list lnode) : lnode := LNode (lit t) a None 0 0 None k.
Definition ex_meta : meta :=
  {| m_keys := [lit "type"; lit "alt"]; m_nonkey := []; m_key := []; m_attord := []; m_maxats := 0; m_elord := [];
     m_maxels := 0; m_attvals := []; m_serial := []; m_blocks := [] |}.
Definition ex_doc : lnode :=
  xl "ldml" [] [xl "identity" [] []; xl "dates" [] [xl "month" [(lit "type", lit "1"); (lit "draft", lit "x")] []; xl "month" [(lit "type", lit "2")] []]].
Definition xp_space (c : N) : bool := N.eqb c 32.
Definition has_none (bad : list N) (s : pystr) : bool := forallb (fun c => negb (existsb (N.eqb c) bad)) s.
Lemma has_none_ok bad s : has_none bad s = true -> without bad s.
Proof.
  unfold has_none. rewrite forallb_forall. intros H c Hc Hin. specialize (H c Hin). apply negb_true_iff in H.
  assert (existsb (N.eqb c) bad = true) as X; [|congruence]. apply existsb_exists. exists c. split; [exact Hc|apply N.eqb_refl].
Qed.
Lemma clear_of c : ltag c <> [] -> ltag c <> lit "." -> has_none [47; 91]%N (ltag c) = true -> NoDup (dkeys (lattrs c)) ->
  forallb (fun kv : pystr * pystr => (has_none [47; 93; 61; 10]%N (fst kv) && has_none [32]%N (fst kv) && has_none [47; 93; 10]%N (snd kv))%bool) (lattrs c) = true ->
  clear_name xp_space [] c.
Proof.
  intros N1 N2 H1 ND H2.
  assert (T : forall t, reverse_localns [] t = t).
  { intro t. unfold reverse_localns. destruct (partition1 58 t) as [[[|] ?]|]; reflexivity. }
  split; [exact N1|]. split; [exact N2|]. split; [now apply has_none_ok|]. split; [apply T|]. split; [exact ND|].
  intros k v E. unfold lget in E. apply (dget_In _ streq_spec) in E. rewrite forallb_forall in H2. specialize (H2 _ E). cbn [fst snd] in H2.
  apply andb_prop in H2 as [H2 H3]. apply andb_prop in H2 as [H2 H4]. split; [now apply has_none_ok|]. split; [|split; [apply T|now apply has_none_ok]].
  intros k' x ->. apply has_none_ok in H4. unfold xp_space. apply N.eqb_neq. intros ->. apply (H4 32%N); [now left|]. apply in_or_app. right. now left.
Qed.
Example C68_ex_path : as_xpath ex_meta false ex_doc [K 1; K 1] = Some (lit "dates/month[@type=""2""]") /\
  reached ex_doc [1; 1] /\ Forall (clear_name xp_space []) (on_the_way ex_doc [1; 1]) /\ alone ex_meta false ex_doc [1; 1].
Proof.
  split; [vm_compute; reflexivity|]. split; [unfold reached; cbn; discriminate|]. split.
  - unfold ex_doc, xl. cbn [on_the_way nth_error lkids]. constructor; [|constructor; [|constructor]]; (apply clear_of; [discriminate|discriminate|reflexivity| |reflexivity]).
    + constructor.
    + repeat constructor; intros [].
  - cbn [alone ex_doc xl lkids nth_error]. intros c E. injection E as <-. split.
    + intros [|[|[|j]]] c' E [T _]; cbn in E; try (injection E as <-); try discriminate; try reflexivity; cbn in T; discriminate.
    + intros c E. cbn in E. injection E as <-. split; [|exact I].
      intros [|[|[|j]]] c' E [T H]; cbn in E; try (injection E as <-); try discriminate; try reflexivity.
      specialize (H (lit "type") (lit "2") eq_refl eq_refl). destruct H as [H|[H _]]; cbn in H; discriminate.
Qed.
Example C68_ex_remove : forall hasher dd useDrafts ud uid,
  remove_path xp_space hasher ex_meta dd useDrafts ud uid [] ex_doc [] (lit "dates/month[@type=""1""]") None None None None =
  Ok (xl "ldml" [] [xl "identity" [] []; xl "dates" [] [xl "month" [(lit "type", lit "2")] []]], [[K 1; K 0]]).
Proof. intros. vm_compute. reflexivity. Qed.

(** ** What one might expect and is not so *)
(** two siblings with different distinguishing attributes, but the path of the one finds the other *)
Theorem C68_extra_attribute_refuted :
  ~ forall m root w, reached root w -> Forall (clear_name xp_space []) (on_the_way root w) ->
      (* no other child of any element has the same tag and the same distinguishing attributes *)
      (forall n i j c c', nth_error (lkids n) i = Some c -> nth_error (lkids n) j = Some c' -> (exists p, at_place root p = Some n) ->
         ltag c = ltag c' -> (forall k, is_dist m false (ltag c) k = true -> lget c k = lget c' k) -> i = j) ->
      forall path hasher dd useDrafts ud uid, as_xpath m false root (map K w) = Some path ->
        find xp_space hasher m dd useDrafts ud uid [] root [] path = Ok (root, Some (map K w)).
Proof.
  intro H. specialize (H ex_meta (xl "ldml" [] [xl "day" [(lit "type", lit "1")] []; xl "day" [] []]) [1]).
  assert (X : find xp_space (fun _ => 0%Z) ex_meta [] false None None [] (xl "ldml" [] [xl "day" [(lit "type", lit "1")] []; xl "day" [] []]) [] (lit "day")
    = Ok (xl "ldml" [] [xl "day" [(lit "type", lit "1")] []; xl "day" [] []], Some (map K [1]))).
  { apply H.
    - unfold reached. cbn. discriminate.
    - unfold xl. cbn [on_the_way nth_error lkids]. constructor; [|constructor]. apply clear_of; [discriminate|discriminate|reflexivity|constructor|reflexivity].
    - intros n i j c c' Ei Ej (p & Ep) _ D. destruct p as [|[a|a] p]; [injection Ep as <-| |discriminate].
      + assert (TT : ltag c = lit "day") by (destruct i as [|[|[|i]]]; cbn in Ei; try discriminate; injection Ei as <-; reflexivity).
        specialize (D (lit "type")). rewrite TT in D. specialize (D eq_refl).
        destruct i as [|[|[|i]]], j as [|[|[|j]]]; cbn in Ei, Ej; try discriminate; try reflexivity; injection Ei as <-; injection Ej as <-; cbn in D; discriminate.
      + cbn [at_place xl lkids] in Ep. destruct a as [|[|[|a]]]; cbn [nth_error] in Ep; try discriminate;
          (destruct p as [|[b|b] p]; [injection Ep as <-; destruct i; discriminate|destruct b; discriminate|discriminate]).
    - vm_compute. reflexivity. }
  vm_compute in X. discriminate.
Qed.
(** the path of an element in a namespace whose name has a slash finds nothing *)
Theorem C68_namespace_refuted : exists root w, reached root w /\ forall m usedrafts hasher dd useDrafts ud uid,
  exists path, as_xpath m usedrafts root (map K w) = Some path /\
    findall xp_space hasher m dd useDrafts ud uid [(silns, lit "sil")] root [] path = Ok (root, []).
Proof.
  exists (xl "ldml" [] [LNode (siltag (lit "identity")) [] None 0 0 None []]), [0]. split; [unfold reached; cbn; discriminate|].
  intros. eexists. split; [reflexivity|]. vm_compute. reflexivity.
Qed.
