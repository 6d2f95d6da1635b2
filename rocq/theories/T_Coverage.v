(** C85: the report of how much of each level of CLDR the locales cover. *)
From Coq Require Import String QArith.
From Verif Require Import Py PyFacts M_Coverage.
Local Open Scope list_scope.
Local Open Scope nat_scope.

(** * Specification *)
(** the path of an element counts if its text is not empty (a missing text counts too) and all the
    elements it is in have an empty text *)
Inductive shown : elem -> pystr -> Prop :=
| shown_here path text kids : text <> Some [] -> shown (El path text kids) path
| shown_below path kids k p : In k kids -> shown k p -> shown (El path (Some []) kids) p.

(** an expression is written out: each variable and each target replaced, left to right *)
Inductive written (at_ : pystr -> option (pystr * pystr)) (f : pystr -> res pystr) : pystr -> pystr -> Prop :=
| w_end : written at_ f [] []
| w_hit c s name rest a r : at_ (c :: s) = Some (name, rest) -> f name = Ok a -> written at_ f rest r -> written at_ f (c :: s) (a ++ r)
| w_miss c s r : at_ (c :: s) = None -> written at_ f s r -> written at_ f (c :: s) (c :: r).
Definition expands (vars : vars_t) (info : list (pystr * ival)) (c r : pystr) : Prop :=
  exists x, written var_at (dovar vars) c x /\ written info_at (doinfo info) x r.

Section Spec.
Context (rx : pystr -> pystr -> bool).
(** a condition of a level entry holds of a part of the tag *)
Definition holds (vars : vars_t) (info : list (pystr * ival)) (p v : option pystr) : Prop :=
  forall c, p = Some c -> exists r s, expands vars info c r /\ v = Some s /\ rx r s = true.
(** the entry applies to the tag, and its paths are those that match [r] *)
Definition applies (vars : vars_t) (info : list (pystr * ival)) (lt : ltag) (c : clevel) (r : pystr) : Prop :=
  holds vars info (inLanguage c) (lang lt) /\ holds vars info (inScript c) (script lt) /\ holds vars info (inTerritory c) (region lt) /\
  exists m, match_ c = Some m /\ expands vars info m r.
(** what an entry adds: the number of different paths that match *)
Definition adds (vars : vars_t) (info : list (pystr * ival)) (lt : ltag) (root : elem) (c : clevel) (n : nat) : Prop :=
  (exists r, applies vars info lt c r /\ forall xs, NoDup xs -> (forall p, In p xs <-> shown root p) -> n = length (filter (rx r) xs)) \/
  ((forall r, ~ applies vars info lt c r) /\ n = 0).
End Spec.
Definition entries (levels : levels_t) (m : pystr) : list clevel :=
  match dget streq levels m with Some cs => map fst cs | None => [] end.
Definition selected (w : world) (m : pystr) : Prop := only w = None \/ only w = Some m.
(** the same levels, whatever has been tested with them *)
Definition same_levels (a b : levels_t) : Prop :=
  map (fun l => (fst l, map fst (snd l))) a = map (fun l => (fst l, map fst (snd l))) b.

(** * The paths *)
Lemma elem_ind' (P : elem -> Prop) : (forall path text kids, Forall P kids -> P (El path text kids)) -> forall e, P e.
Proof.
  intros H. fix IH 1. intros [path text kids]. apply H. induction kids as [|k ks IHk]; constructor; [apply IH|exact IHk].
Qed.
Theorem C85_paths e p : In p (getxpaths e) <-> shown e p.
Proof.
  induction e as [path text kids IH] using elem_ind'. cbn [getxpaths]. rewrite Forall_forall in IH. split.
  - intros I. destruct text as [[|x t]|]; cbn [text_ne] in I.
    + apply in_flat_map in I. destruct I as [k [K I]]. apply shown_below with k; [exact K|now apply IH].
    + destruct I as [<-|[]]. apply shown_here. discriminate.
    + destruct I as [<-|[]]. apply shown_here. discriminate.
  - intros S1. inversion S1 as [p0 t0 k0 NT|p0 k0 k q K S2]; subst.
    + destruct text as [[|x t]|]; cbn [text_ne]; [congruence|now left|now left].
    + cbn [text_ne]. apply in_flat_map. exists k. split; [exact K|now apply IH].
Qed.
(** So what counts depends on how the file is laid out: without white space between the start tags
    nothing below counts. *)
Theorem C85_layout_refuted path kids k p : In k kids -> shown k p -> p <> path ->
  In p (getxpaths (El path (Some []) kids)) /\ ~ In p (getxpaths (El path None kids)).
Proof.
  intros K S1 NE. split; [apply C85_paths; now apply shown_below with k|]. cbn. intros [X|[]]. congruence.
Qed.

Lemma existsb_streq x s : existsb (streq x) s = true <-> In x s.
Proof.
  rewrite existsb_exists. split; [intros [y [I E]]; destruct (streq_spec x y); [now subst|discriminate]|].
  intros I. exists x. split; [exact I|]. destruct (streq_spec x x); congruence.
Qed.
Lemma to_set_spec l : NoDup (to_set l) /\ forall p, In p (to_set l) <-> In p l.
Proof.
  unfold to_set. assert (G : forall l s, NoDup s -> NoDup (fold_left add_set l s) /\ forall p, In p (fold_left add_set l s) <-> In p s \/ In p l).
  { clear. induction l as [|x l IH]; intros s ND; cbn [fold_left]; [split; [exact ND|intros p; cbn; tauto]|].
    assert (A : NoDup (add_set s x) /\ forall p, In p (add_set s x) <-> In p s \/ p = x).
    { unfold add_set. destruct (existsb (streq x) s) eqn:E.
      - apply existsb_streq in E. split; [exact ND|]. intros p. split; [now left|]. intros [I| ->]; assumption.
      - assert (NI : ~ In x s) by (intros I; apply existsb_streq in I; congruence). split.
        + apply NoDup_Add with (a := x) (l := s); [|now split]. rewrite <- (app_nil_r s) at 1. apply Add_app.
        + intros p. rewrite in_app_iff. cbn. intuition congruence. }
    destruct A as [A1 A2]. destruct (IH _ A1) as [B1 B2]. split; [exact B1|]. intros p. rewrite B2, A2. cbn. intuition congruence. }
  destruct (G l [] (NoDup_nil _)) as [A B]. split; [exact A|]. intros p. rewrite B. cbn. tauto.
Qed.

(** * Substitution *)
Lemma span_len p s : length (snd (span p s)) <= length s.
Proof. induction s as [|c s IH]; cbn [span]; [cbn; lia|]. destruct (p c); [|cbn; lia]. destruct (span p s). cbn [snd length] in *. lia. Qed.
Lemma strip_prefix_len p : forall s r, strip_prefix p s = Some r -> length r + length p = length s.
Proof.
  induction p as [|x p IH]; intros s r H; cbn [strip_prefix] in H; [injection H as <-; cbn; lia|].
  destruct s as [|y s]; [discriminate|]. destruct (N.eqb x y); [|discriminate]. apply IH in H. cbn. lia.
Qed.
Definition shortens (at_ : pystr -> option (pystr * pystr)) : Prop := forall s n r, at_ s = Some (n, r) -> length r < length s.
Lemma var_short : shortens var_at.
Proof.
  intros s n r H. unfold var_at in H. destruct s as [|c s]; [discriminate|].
  assert (X : exists p, (match span p s with ([], _) => None | q => Some q end) = Some (n, r)).
  { destruct c as [|q]; [discriminate|]. repeat (destruct q as [q|q|]; try discriminate). eexists. exact H. }
  destruct X as [p X]. pose proof (span_len p s) as L. destruct (span p s) as [a b]. destruct a; [discriminate|].
  injection X as <- <-. cbn [snd length] in *. lia.
Qed.
Lemma info_short : shortens info_at.
Proof.
  intros s n r H. unfold info_at in H. destruct (strip_prefix _ s) as [s'|] eqn:E; [|discriminate].
  apply strip_prefix_len in E. assert (L0 : length (lit "${Target-") = 9) by reflexivity.
  match type of H with context [span ?p s'] => pose proof (span_len p s') as L; destruct (span p s') as [a b] end.
  destruct a as [|x a]; [discriminate|]. destruct b as [|d b]; [discriminate|].
  assert (X : b = r). { destruct d as [|q]; [discriminate|]. repeat (destruct q as [q|q|]; try discriminate). now injection H. }
  subst b. cbn [snd length] in *. lia.
Qed.
Lemma sub_spec at_ f : shortens at_ -> forall fuel s, length s <= fuel -> forall r, sub at_ f fuel s = Ok r <-> written at_ f s r.
Proof.
  intros SH. induction fuel as [|fuel IH]; intros s L r; cbn [sub].
  - destruct s; [|cbn in L; lia]. split; [intros H; injection H as <-; constructor|]. intros H. now inversion H.
  - destruct s as [|c s]; [split; [intros H; injection H as <-; constructor|intros H; now inversion H]|].
    cbn [length] in L. destruct (at_ (c :: s)) as [[n rest]|] eqn:A.
    + pose proof (SH _ _ _ A) as LR. cbn [length] in LR. split.
      * intros H. destruct (f n) as [a|] eqn:F; [|discriminate]. cbn [bind] in H.
        destruct (sub at_ f fuel rest) as [q|] eqn:R1; [|discriminate]. cbn [bind] in H. injection H as <-.
        apply w_hit with n rest; [exact A|exact F|]. apply IH; [lia|exact R1].
      * intros H. inversion H as [|c0 s0 n0 rest0 a q A0 F0 W0|c0 s0 q A0 W0]; subst; rewrite A in A0; [|discriminate].
        injection A0 as <- <-. rewrite F0. cbn [bind]. apply (IH rest ltac:(lia)) in W0. now rewrite W0.
    + split.
      * intros H. destruct (sub at_ f fuel s) as [q|] eqn:R1; [|discriminate]. cbn [bind] in H. injection H as <-.
        apply w_miss; [exact A|]. apply IH; [lia|exact R1].
      * intros H. inversion H as [|c0 s0 n0 rest0 a q A0 F0 W0|c0 s0 q A0 W0]; subst; rewrite A in A0; [discriminate|].
        apply (IH s ltac:(lia)) in W0. now rewrite W0.
Qed.
Lemma expand_spec vars info c r : expand vars info c = Ok r <-> expands vars info c r.
Proof.
  unfold expand, expands. split.
  - destruct (sub var_at (dovar vars) (length c) c) as [x|] eqn:A; [|discriminate]. cbn [bind]. intros H.
    exists x. split; [now apply (sub_spec _ _ var_short _ _ (le_n _))|now apply (sub_spec _ _ info_short _ _ (le_n _))].
  - intros [x [A B]]. apply (sub_spec _ _ var_short _ _ (le_n _)) in A. rewrite A. cbn [bind]. now apply (sub_spec _ _ info_short _ _ (le_n _)).
Qed.

Section Main.
Context (rx : pystr -> pystr -> bool).

(** * One entry *)
Lemma check_spec vars info p v b : check rx vars info p v = Ok b -> (b = true <-> holds rx vars info p v).
Proof.
  unfold check, holds. destruct p as [c|]; [|intros H; injection H as <-; split; [discriminate|reflexivity]].
  destruct (expand vars info c) as [r|] eqn:X; [|discriminate]. cbn [bind]. destruct v as [s|]; [|discriminate].
  intros H. injection H as <-. apply expand_spec in X. split.
  - intros R1 c0 E. injection E as <-. exists r, s. auto.
  - intros H. destruct (H c eq_refl) as [r' [s' [X' [E R1]]]]. injection E as <-.
    apply expand_spec in X, X'. congruence.
Qed.
Lemma coverage_spec lt vars info c t : test_coverage rx lt vars info c = Ok t ->
  (fst t = true /\ exists r, snd t = Some r /\ applies rx vars info lt c r) \/ (t = (false, None) /\ forall r, ~ applies rx vars info lt c r).
Proof.
  unfold test_coverage, applies.
  destruct (check rx vars info (inLanguage c) (lang lt)) as [a|] eqn:A; [|discriminate]. apply check_spec in A. cbn [bind].
  destruct a; cbn [negb]; [|intros H; injection H as <-; right; split; [reflexivity|intros r [X _]; apply A in X; discriminate]].
  destruct (check rx vars info (inScript c) (script lt)) as [b|] eqn:B; [|discriminate]. apply check_spec in B. cbn [bind].
  destruct b; cbn [negb]; [|intros H; injection H as <-; right; split; [reflexivity|intros r [_ [X _]]; apply B in X; discriminate]].
  destruct (check rx vars info (inTerritory c) (region lt)) as [d|] eqn:D; [|discriminate]. apply check_spec in D. cbn [bind].
  destruct d; cbn [negb]; [|intros H; injection H as <-; right; split; [reflexivity|intros r [_ [_ [X _]]]; apply D in X; discriminate]].
  destruct (match_ c) as [m|]; [|discriminate]. destruct (expand vars info m) as [r|] eqn:X; [|discriminate]. cbn [bind].
  intros H. injection H as <-. left. split; [reflexivity|]. exists r. split; [reflexivity|]. apply expand_spec in X.
  split; [now apply A|]. split; [now apply B|]. split; [now apply D|]. exists m. auto.
Qed.
Lemma applies_fun vars info lt c r r' : applies rx vars info lt c r -> applies rx vars info lt c r' -> r = r'.
Proof.
  intros [_ [_ [_ [m [M X]]]]] [_ [_ [_ [m' [M' X']]]]]. rewrite M in M'. injection M' as <-.
  apply expand_spec in X, X'. congruence.
Qed.

(** * Counting *)
Lemma stat_dset st m k n : stat (dset streq st m k) n = if streq n m then k else stat st n.
Proof. unfold stat. rewrite (dget_dset _ streq_spec). now destruct (streq n m). Qed.
Lemma fold_count t m xs : forall st n,
  stat (fold_left (fun st x => if test_xpath rx t x then dset streq st m (stat st m + 1) else st) xs st) n =
  stat st n + (if streq n m then length (filter (test_xpath rx t) xs) else 0).
Proof.
  induction xs as [|x xs IH]; intros st n; cbn [fold_left filter]; [destruct (streq n m); cbn; lia|].
  rewrite IH. destruct (test_xpath rx t x); [|reflexivity]. rewrite stat_dset. destruct (streq_spec n m) as [->|NE]; cbn [length]; lia.
Qed.
Lemma same_members (A : Type) (p : A -> bool) (a b : list A) : NoDup a -> NoDup b -> (forall x, In x a <-> In x b) -> length (filter p a) = length (filter p b).
Proof.
  intros NA NB H. apply Permutation_length. apply NoDup_Permutation; [now apply NoDup_filter|now apply NoDup_filter|].
  intros x. rewrite !filter_In, H. reflexivity.
Qed.
Lemma count_level_spec lt root vars info m : forall cs st q,
  count_level rx lt (to_set (getxpaths root)) vars info m cs st = Ok q ->
  map fst (snd q) = map fst cs /\
  exists ns, Forall2 (adds rx vars info lt root) (map fst cs) ns /\
    forall n, stat (fst q) n = stat st n + (if streq n m then list_sum ns else 0).
Proof.
  set (xs := to_set (getxpaths root)).
  assert (XS : NoDup xs /\ forall p, In p xs <-> shown root p).
  { destruct (to_set_spec (getxpaths root)) as [A B]. split; [exact A|]. intros p. now rewrite <- C85_paths. }
  destruct XS as [ND IN].
  induction cs as [|[c t0] cs IH]; intros st q H; cbn [count_level] in H.
  - injection H as <-. split; [reflexivity|]. exists []. split; [constructor|]. intros n. cbn. destruct (streq n m); lia.
  - destruct (test_coverage rx lt vars info c) as [t|] eqn:T; [|discriminate]. cbn [bind] in H.
    set (st' := if fst t then fold_left (fun st x => if test_xpath rx (snd t) x then dset streq st m (stat st m + 1) else st) xs st else st) in H.
    destruct (count_level rx lt xs vars info m cs st') as [r|] eqn:R1; [|discriminate]. cbn [bind] in H. injection H as <-.
    destruct (IH _ _ R1) as [A [ns [F S1]]]. cbn [fst snd map]. split; [now f_equal|].
    destruct (coverage_spec _ _ _ _ _ T) as [[T1 [r0 [T2 AP]]]|[-> NA]].
    + exists (length (filter (rx r0) xs) :: ns). split.
      * constructor; [|exact F]. left. exists r0. split; [exact AP|]. intros ys NY IY. apply same_members; [exact ND|exact NY|].
        intros x. now rewrite IN, IY.
      * intros n. rewrite S1. unfold st'. rewrite T1, fold_count, T2. change (list_sum (?a :: ns)) with (a + list_sum ns).
        unfold list_sum. cbn [fold_right]. change (test_xpath rx (Some r0)) with (rx r0). destruct (streq n m); lia.
    + exists (0 :: ns). split; [constructor; [right; auto|exact F]|]. intros n. rewrite S1. reflexivity.
Qed.
Lemma dkeys_same a b m : same_levels a b -> entries a m = entries b m.
Proof.
  unfold same_levels, entries. revert b. induction a as [|[k cs] a IH]; intros [|[k' cs'] b] H; cbn [map fst snd] in H; try discriminate; [reflexivity|].
  injection H as -> E H. cbn [dget]. destruct (streq m k'); [exact E|]. now apply IH.
Qed.
Lemma getstats_spec o lt root vars info : forall levels st q, NoDup (map fst levels) ->
  getstats rx o lt (to_set (getxpaths root)) vars info levels st = Ok q ->
  same_levels (snd q) levels /\
  forall m, exists ns, Forall2 (adds rx vars info lt root) (entries levels m) ns /\
     (o = None \/ o = Some m -> stat (fst q) m = stat st m + list_sum ns) /\
     (~ (o = None \/ o = Some m) -> stat (fst q) m = stat st m).
Proof.
  induction levels as [|[k cs] levels IH]; intros st q ND H; cbn [getstats] in H.
  - injection H as <-. split; [reflexivity|]. intros m. exists []. split; [constructor|]. cbn. split; intros; lia.
  - inversion ND as [|? ? NI ND']. subst. cbn [fst] in NI.
    assert (OUT : forall m, streq m k = true -> forall b, same_levels b levels -> entries levels m = []).
    { intros m E b _. unfold entries. destruct (streq_spec m k) as [X|X]; [rewrite X|discriminate].
      destruct (dget streq levels k) as [v|] eqn:G; [|reflexivity]. exfalso. apply NI. apply (dget_In _ streq_spec) in G. apply in_map_iff. exists (k, v). auto. }
    assert (SK : match o with Some o => negb (streq o k) | None => false end = true <-> ~ (o = None \/ o = Some k)).
    { destruct o as [o|]; [destruct (streq_spec o k) as [->|NE]; cbn|].
      - split; [discriminate|]. intros X. exfalso. apply X. now right.
      - split; [|reflexivity]. intros _ [X|X]; [discriminate|congruence].
      - split; [discriminate|]. intros X. exfalso. apply X. now left. }
    destruct (match o with Some o => negb (streq o k) | None => false end) eqn:M.
    + destruct (getstats rx o lt _ vars info levels st) as [r|] eqn:R1; [|discriminate]. cbn [bind] in H. injection H as <-.
      destruct (IH _ _ ND' R1) as [A B]. split; [unfold same_levels in *; cbn [map fst snd]; now rewrite A|].
      intros m. cbn [fst]. destruct (B m) as [ns [F [S1 S2]]]. unfold entries. cbn [dget]. destruct (streq m k) eqn:E.
      * destruct (streq_spec m k) as [->|]; [|discriminate].
        assert (NS : ~ (o = None \/ o = Some k)) by now apply SK.
        assert (EX : exists ns', Forall2 (adds rx vars info lt root) (map fst cs) ns').
        { (* every entry adds something *)
          clear - rx. induction cs as [|[c t] cs [ns IH]]; [exists []; constructor|].
          assert (D : (exists r, applies rx vars info lt c r) \/ forall r, ~ applies rx vars info lt c r).
          { assert (HD : forall p v, holds rx vars info p v \/ ~ holds rx vars info p v).
            { intros p v. unfold holds. destruct p as [x|]; [|left; discriminate].
              destruct (expand vars info x) as [r|] eqn:X.
              - destruct v as [s|].
                + destruct (rx r s) eqn:R1.
                  * left. intros c0 E. injection E as <-. exists r, s. apply expand_spec in X. auto.
                  * right. intros H. destruct (H x eq_refl) as [r' [s' [X' [E R2]]]]. injection E as <-. apply expand_spec in X'. congruence.
                + right. intros H. destruct (H x eq_refl) as [r' [s' [X' [E R2]]]]. discriminate.
              - right. intros H. destruct (H x eq_refl) as [r' [s' [X' _]]]. apply expand_spec in X'. congruence. }
            unfold applies.
            destruct (HD (inLanguage c) (lang lt)) as [H1|H1]; [|right; tauto].
            destruct (HD (inScript c) (script lt)) as [H2|H2]; [|right; tauto].
            destruct (HD (inTerritory c) (region lt)) as [H3|H3]; [|right; tauto].
            destruct (match_ c) as [m|]; [|right; intros r [_ [_ [_ [m [X _]]]]]; discriminate].
            destruct (expand vars info m) as [r|] eqn:X.
            - left. exists r. split; [exact H1|]. split; [exact H2|]. split; [exact H3|]. exists m. split; [reflexivity|now apply expand_spec].
            - right. intros r [_ [_ [_ [m' [Y Z]]]]]. injection Y as <-. apply expand_spec in Z. congruence. }
          destruct D as [[r AP]|NA].
          - exists (length (filter (rx r) (to_set (getxpaths root))) :: ns). constructor; [|exact IH]. left. exists r. split; [exact AP|].
            intros ys NY IY. destruct (to_set_spec (getxpaths root)) as [A B]. apply same_members; [exact A|exact NY|].
            intros x. now rewrite B, IY, C85_paths.
          - exists (0 :: ns). constructor; [right; auto|exact IH]. }
        destruct EX as [ns' F']. exists ns'. split; [exact F'|]. split; [tauto|]. intros _. apply S2. exact NS.
      * exists ns. auto.
    + destruct (count_level rx lt _ vars info k cs st) as [c|] eqn:C1; [|discriminate]. cbn [bind] in H.
      destruct (getstats rx o lt _ vars info levels (fst c)) as [r|] eqn:R1; [|discriminate]. cbn [bind] in H. injection H as <-.
      destruct (IH _ _ ND' R1) as [A B]. destruct (count_level_spec _ _ _ _ _ _ _ _ C1) as [A1 [ns1 [F1 S1]]].
      split; [unfold same_levels in *; cbn [map fst snd]; now rewrite A, A1|].
      intros m. cbn [fst]. destruct (B m) as [ns [F [S2 S3]]]. unfold entries. cbn [dget]. destruct (streq m k) eqn:E.
      * assert (Z : entries levels m = []) by (apply (OUT m E levels); reflexivity).
        assert (MK : m = k) by (destruct (streq_spec m k); congruence). subst m.
        rewrite Z in F. inversion F. subst ns. exists ns1. split; [exact F1|].
        assert (T : o = None \/ o = Some k).
        { destruct o as [o|]; [|now left]. apply negb_false_iff in M. destruct (streq_spec o k) as [->|]; [now right|discriminate]. }
        split; [|tauto]. intros _. rewrite (S2 T), S1, E. cbn. lia.
      * exists ns. split; [exact F|]. split; [intros T; rewrite (S2 T)|intros T; rewrite (S3 T)]; rewrite S1, E; lia.
Qed.

(** Of a locale with a file of more than one section, each level counts, for every entry of the
    level that applies to the tag, the different paths that match it. *)
Theorem C85_counts w levels loc lt st src levels' : NoDup (map fst levels) ->
  locale_stats rx w levels loc lt = Ok (st, src, levels') ->
  match getdoc w loc with
  | None => st = [] /\ src = None
  | Some (s, root) =>
      src = Some s /\
      (length (kids_of root) < 2 -> st = []) /\
      (2 <= length (kids_of root) -> forall m, exists ns, Forall2 (adds rx (vars w) (infos w lt) lt root) (entries levels m) ns /\
         (selected w m -> stat st m = list_sum ns) /\ (~ selected w m -> stat st m = 0))
  end.
Proof.
  intros ND. unfold locale_stats. destruct (getdoc w loc) as [[s root]|]; [|intros H; injection H as <- <- <-; auto].
  destruct (length (kids_of root) <? 2) eqn:L.
  - apply Nat.ltb_lt in L. intros H. injection H as <- <- <-. split; [reflexivity|]. split; [reflexivity|lia].
  - apply Nat.ltb_ge in L. destruct (getstats rx (only w) lt _ _ _ levels []) as [q|] eqn:G; [|discriminate]. cbn [bind].
    intros H. injection H as <- <- <-. split; [reflexivity|]. split; [lia|]. intros _ m.
    destruct (getstats_spec _ _ _ _ _ _ _ _ ND G) as [_ B]. exact (B m).
Qed.

(** * Independence *)
Lemma count_level_same lt xs vars info m : forall cs cs' st, map fst cs = map fst cs' ->
  count_level rx lt xs vars info m cs st = count_level rx lt xs vars info m cs' st.
Proof.
  induction cs as [|[c t] cs IH]; intros [|[c' t'] cs'] st H; cbn [map fst] in H; try discriminate; [reflexivity|].
  injection H as -> H. cbn [count_level]. destruct (test_coverage rx lt vars info c'); [|reflexivity]. cbn [bind].
  now rewrite (IH cs' _ H).
Qed.
Definition forget {A} (r : res (A * levels_t)) : res A := do x <- r; Ok (fst x).
Lemma getstats_same o lt xs vars info : forall L L' st, same_levels L L' ->
  forget (getstats rx o lt xs vars info L st) = forget (getstats rx o lt xs vars info L' st).
Proof.
  unfold same_levels, forget. induction L as [|[k cs] L IH]; intros [|[k' cs'] L'] st H; cbn [map fst snd] in H; try discriminate; [reflexivity|].
  injection H as -> E H. cbn [getstats]. destruct (match o with Some o => negb (streq o k') | None => false end).
  - specialize (IH L' st H). destruct (getstats rx o lt xs vars info L st); destruct (getstats rx o lt xs vars info L' st); cbn [bind fst] in *; congruence.
  - rewrite (count_level_same _ _ _ _ _ _ _ _ E). destruct (count_level rx lt xs vars info k' cs' st) as [c|]; [|reflexivity]. cbn [bind].
    specialize (IH L' (fst c) H). destruct (getstats rx o lt xs vars info L (fst c)); destruct (getstats rx o lt xs vars info L' (fst c)); cbn [bind fst] in *; congruence.
Qed.
Lemma getstats_keeps o lt xs vars info : forall L st q, getstats rx o lt xs vars info L st = Ok q -> same_levels (snd q) L.
Proof.
  unfold same_levels. induction L as [|[k cs] L IH]; intros st q H; cbn [getstats] in H; [injection H as <-; reflexivity|].
  assert (CK : forall cs st c, count_level rx lt xs vars info k cs st = Ok c -> map fst (snd c) = map fst cs).
  { clear. induction cs as [|[c t] cs IH]; intros st q H; cbn [count_level] in H; [injection H as <-; reflexivity|].
    destruct (test_coverage rx lt vars info c) as [t'|]; [|discriminate]. cbn [bind] in H.
    destruct (count_level rx lt xs vars info k cs _) as [r|] eqn:R1; [|discriminate]. cbn [bind] in H. injection H as <-.
    cbn [snd map fst]. now rewrite (IH _ _ R1). }
  destruct (match o with Some o => negb (streq o k) | None => false end).
  - destruct (getstats rx o lt xs vars info L st) as [r|] eqn:R1; [|discriminate]. cbn [bind] in H. injection H as <-. cbn [snd map fst]. now rewrite (IH _ _ R1).
  - destruct (count_level rx lt xs vars info k cs st) as [c|] eqn:C1; [|discriminate]. cbn [bind] in H.
    destruct (getstats rx o lt xs vars info L (fst c)) as [r|] eqn:R1; [|discriminate]. cbn [bind] in H. injection H as <-. cbn [snd map fst].
    now rewrite (IH _ _ R1), (CK _ _ _ C1).
Qed.
Lemma locale_same w L L' loc lt : same_levels L L' ->
  forget (locale_stats rx w L loc lt) = forget (locale_stats rx w L' loc lt).
Proof.
  intros S1. unfold locale_stats, forget. destruct (getdoc w loc) as [[s root]|]; [|reflexivity].
  destruct (length (kids_of root) <? 2); [reflexivity|].
  pose proof (getstats_same (only w) lt (to_set (getxpaths root)) (vars w) (infos w lt) L L' [] S1) as G. unfold forget in G.
  destruct (getstats rx (only w) lt _ _ _ L []); destruct (getstats rx (only w) lt _ _ _ L' []); cbn [bind fst] in *; congruence.
Qed.
Lemma locale_keeps w L loc lt q : locale_stats rx w L loc lt = Ok q -> same_levels (snd q) L.
Proof.
  unfold locale_stats. destruct (getdoc w loc) as [[s root]|]; [|intros H; injection H as <-; reflexivity].
  destruct (length (kids_of root) <? 2); [intros H; injection H as <-; reflexivity|].
  destruct (getstats rx (only w) lt _ _ _ L []) as [r|] eqn:G; [|discriminate]. cbn [bind]. intros H. injection H as <-. cbn [snd].
  now apply getstats_keeps in G.
Qed.
Lemma doit_same w L L' loc : same_levels L L' -> forget (doit rx w L loc) = forget (doit rx w L' loc).
Proof.
  intros S1. unfold doit. destruct (lookup w loc) as [lt|]; [|reflexivity].
  pose proof (locale_same w L L' loc lt S1) as G. unfold forget in *.
  destruct (locale_stats rx w L loc lt) as [[[a b] c]|]; destruct (locale_stats rx w L' loc lt) as [[[a' b'] c']|]; cbn [bind fst snd] in *; congruence.
Qed.
Lemma doit_keeps w L loc q : doit rx w L loc = Ok q -> same_levels (snd q) L.
Proof.
  unfold doit. destruct (lookup w loc) as [lt|]; [|intros H; injection H as <-; reflexivity].
  destruct (locale_stats rx w L loc lt) as [r|] eqn:G; [|discriminate]. cbn [bind]. intros H. injection H as <-. cbn [snd]. now apply locale_keeps in G.
Qed.
(** What is found for a locale does not depend on the locales that the same process has done
    before, nor so on how the locales are shared out. *)
Theorem C85_independent w levels levels0 locs rs : same_levels levels levels0 ->
  (do_all rx w levels locs = Ok rs <->
   Forall2 (fun loc r => exists after, doit rx w levels0 loc = Ok (r, after)) locs rs).
Proof.
  revert levels rs. induction locs as [|l locs IH]; intros levels rs S1; cbn [do_all].
  - split; [intros H; injection H as <-; constructor|]. intros H. now inversion H.
  - pose proof (doit_same w levels levels0 l S1) as D. unfold forget in D. split.
    + destruct (doit rx w levels l) as [q|] eqn:Q; [|discriminate]. cbn [bind] in *.
      destruct (do_all rx w (snd q) locs) as [rs'|] eqn:R1; [|discriminate]. cbn [bind]. intros H. injection H as <-.
      constructor.
      * destruct (doit rx w levels0 l) as [[a b]|]; cbn [bind fst] in D; [|discriminate]. injection D as ->. now exists b.
      * apply (IH (snd q)); [|exact R1]. unfold same_levels in *. now rewrite (doit_keeps _ _ _ _ Q).
    + intros H. inversion H as [|l0 r locs0 rs0 [af A] F]. subst. rewrite A in D. cbn [bind fst] in D.
      destruct (doit rx w levels l) as [q|] eqn:Q; [|discriminate]. cbn [bind] in *. injection D as D.
      assert (S2 : same_levels (snd q) levels0) by (unfold same_levels in *; now rewrite (doit_keeps _ _ _ _ Q)).
      apply (IH _ _ S2) in F. rewrite F. cbn [bind]. now rewrite D.
Qed.

(** * The table *)
Definition name_of (r : result) : pystr := fst (fst r).
Definition stats_of (r : result) : stats := snd (fst r).
Definition percent (eng : stats) (r : result) (k : pystr) (q : Q) : Prop :=
  exists e, dget streq eng k = Some e /\ q = Qmake (100 * Z.of_nat (stat (stats_of r) k)) (Pos.of_nat e).
(** a row of the table is the name, the source and the percentages of a result *)
(** the columns *)
Definition cldr_levels : list pystr := [lit "core"; lit "posix"; lit "minimal"; lit "basic"; lit "moderate"; lit "modern"].
Definition row_for (eng : stats) (r : result) (x : row) : Prop :=
  fst (fst x) = name_of r /\ snd (fst x) = snd r /\ Forall2 (percent eng r) cldr_levels (snd x).
(** the better covered locale first, and by name between equals *)
Definition in_order (a b : row) : Prop :=
  (qsum (snd b) < qsum (snd a))%Q \/ (qsum (snd a) == qsum (snd b))%Q /\ strleb (fst (fst a)) (fst (fst b)) = true.

Lemma percents_spec eng r ks :
  match percents eng (stats_of r) ks with
  | Ok l => Forall2 (percent eng r) ks l
  | Raise e => e = TypeError /\ exists k, In k ks /\ dget streq eng k = None
  end.
Proof.
  induction ks as [|k ks IH]; cbn [percents]; [constructor|]. destruct (dget streq eng k) as [e|] eqn:G.
  - destruct (percents eng (stats_of r) ks) as [l|x]; cbn [bind].
    + constructor; [|exact IH]. exists e. auto.
    + destruct IH as [-> [j [I J]]]. split; [reflexivity|]. exists j. split; [now right|exact J].
  - split; [reflexivity|]. exists k. split; [now left|exact G].
Qed.
Lemma keys_spec eng rs :
  match keys eng rs with
  | Ok l => map snd l = rs /\ Forall (fun a => Forall2 (percent eng (snd a)) levelnames (fst a)) l
  | Raise e => e = TypeError /\ rs <> [] /\ exists k, In k levelnames /\ dget streq eng k = None
  end.
Proof.
  induction rs as [|r rs IH]; cbn [keys]; [split; constructor|]. pose proof (percents_spec eng r levelnames) as P.
  change (snd (fst r)) with (stats_of r). destruct (percents eng (stats_of r) levelnames) as [l|e]; cbn [bind].
  - destruct (keys eng rs) as [ks|e]; cbn [bind].
    + destruct IH as [<- F]. split; [reflexivity|]. constructor; [exact P|exact F].
    + destruct IH as [E [NE X]]. split; [exact E|]. split; [discriminate|exact X].
  - destruct P as [E X]. split; [exact E|]. split; [discriminate|exact X].
Qed.
Lemma row_total a b : row_leb a b = true \/ row_leb b a = true.
Proof.
  unfold row_leb. set (sa := qsum (fst a)). set (sb := qsum (fst b)). destruct (Qeq_bool sa sb) eqn:E.
  - apply Qeq_bool_iff in E. rewrite (proj2 (Qeq_bool_iff sb sa) (Qeq_sym _ _ E)). apply strleb_total.
  - destruct (Qeq_bool sb sa) eqn:E2.
    + apply Qeq_bool_iff, Qeq_sym, Qeq_bool_iff in E2. congruence.
    + rewrite !Qle_bool_iff. destruct (Qlt_le_dec sa sb) as [H|H]; [right; now apply Qlt_le_weak|now left].
Qed.
Lemma row_order a b : row_leb a b = true <->
  (qsum (fst b) < qsum (fst a))%Q \/ (qsum (fst a) == qsum (fst b))%Q /\ strleb (fst (fst (snd a))) (fst (fst (snd b))) = true.
Proof.
  unfold row_leb. set (sa := qsum (fst a)). set (sb := qsum (fst b)). destruct (Qeq_bool sa sb) eqn:E.
  - apply Qeq_bool_iff in E. split; [intros H; right; auto|]. intros [H|[_ H]]; [|exact H]. rewrite E in H. now apply Qlt_irrefl in H.
  - apply Qeq_bool_neq in E. rewrite Qle_bool_iff. split.
    + intros H. left. apply Qle_lteq in H. destruct H as [H|H]; [exact H|]. symmetry in H. tauto.
    + intros [H|[H _]]; [now apply Qlt_le_weak|tauto].
Qed.
Lemma row_trans a b c : row_leb a b = true -> row_leb b c = true -> row_leb a c = true.
Proof.
  rewrite !row_order. intros [H1|[H1 N1]] [H2|[H2 N2]].
  - left. now apply Qlt_trans with (qsum (fst b)).
  - left. now rewrite <- H2.
  - left. now rewrite H1.
  - right. split; [now rewrite H1|]. eapply strleb_trans; eauto.
Qed.

(** The table has one row for each locale with something found, in order, and its percentages are
    of what is found for English. *)
Theorem C85_rows eng rs rows : table eng rs = (rows, None) ->
  exists kept, Permutation kept (filter (fun r => match stats_of r with [] => false | _ => true end) rs) /\
    Forall2 (row_for eng) kept rows /\ StronglySorted in_order rows.
Proof.
  unfold table. pose proof (keys_spec eng rs) as K. destruct (keys eng rs) as [ks|e]; [|discriminate]. destruct K as [KM KF].
  intros H. injection H as <-. set (f := fun a : list Q * result => match snd (fst (snd a)) with [] => false | _ => true end).
  set (g := fun r : result => match stats_of r with [] => false | _ => true end).
  exists (map snd (filter f (isort row_leb ks))).
  assert (FM : forall l : list (list Q * result), map snd (filter f l) = filter g (map snd l)).
  { induction l as [|a l IH]; cbn [filter map]; [reflexivity|]. change (g (snd a)) with (f a). destruct (f a); cbn [map]; now rewrite IH. }
  split; [|split].
  - rewrite FM, <- KM.
    assert (FP : forall a b : list result, Permutation a b -> Permutation (filter g a) (filter g b)).
    { clear. induction 1 as [|x a b P IH|x y a|a b c P1 I1 P2 I2]; cbn [filter].
      - constructor. - destruct (g x); [now constructor|exact IH]. - destruct (g x), (g y); try apply Permutation_refl. apply perm_swap.
      - now apply Permutation_trans with (filter g b). }
    apply FP, Permutation_map, Permutation_sym, isort_perm.
  - assert (KF' : Forall (fun a => Forall2 (percent eng (snd a)) levelnames (fst a)) (filter f (isort row_leb ks))).
    { apply Forall_forall. intros a I. apply filter_In in I. destruct I as [I _]. apply in_isort in I. rewrite Forall_forall in KF. now apply KF. }
    change (Forall2 (row_for eng) (map snd (filter f (isort row_leb ks))) (map (fun a : list Q * result => (fst (fst (snd a)), snd (snd a), fst a)) (filter f (isort row_leb ks)))).
    induction KF' as [|a l H F IH]; cbn [map]; constructor; [|exact IH]. split; [reflexivity|]. split; [reflexivity|exact H].
  - assert (SS : StronglySorted (fun a b => row_leb a b = true) (isort row_leb ks)).
    { apply isort_sorted; [apply row_total|apply row_trans]. }
    change (StronglySorted in_order (map (fun a : list Q * result => (fst (fst (snd a)), snd (snd a), fst a)) (filter f (isort row_leb ks)))).
    induction SS as [|a l S1 IH H]; cbn [filter map]; [constructor|]. destruct (f a); [|exact IH]. cbn [map]. constructor; [exact IH|].
    apply Forall_forall. intros x I. apply in_map_iff in I. destruct I as [b [<- I]]. apply filter_In in I. destruct I as [I _].
    rewrite Forall_forall in H. specialize (H b I). apply row_order in H. exact H.
Qed.
(** There is no row at all, and an error, exactly if there are locales and English covers nothing of
    some level. *)
Theorem C85_english eng rs :
  (exists e, table eng rs = ([], Some e)) <-> rs <> [] /\ exists k, In k cldr_levels /\ dget streq eng k = None.
Proof.
  change cldr_levels with levelnames. unfold table. pose proof (keys_spec eng rs) as K. destruct (keys eng rs) as [ks|e]; split.
  - intros [e H]. discriminate.
  - intros [NE [k [I G]]]. exfalso. destruct K as [KM KF]. destruct ks as [|a ks]; [now apply NE|]. inversion KF as [|? ? P F]. subst.
    clear - P I G. induction P as [|k' q ks qs [e [E _]] P IH]; [destruct I|]. destruct I as [->|I]; [congruence|auto].
  - intros _. tauto.
  - intros _. destruct K as [-> _]. now exists TypeError.
Qed.
Lemma dget_stat_keys t m xs : forall st n, dget streq (fold_left (fun st x => if test_xpath rx t x then dset streq st m (stat st m + 1) else st) xs st) n <> None ->
  n = m \/ dget streq st n <> None.
Proof.
  induction xs as [|x xs IH]; intros st n H; cbn [fold_left] in H; [now right|]. apply IH in H. destruct H as [H|H]; [now left|].
  destruct (test_xpath rx t x); [|now right]. rewrite (dget_dset _ streq_spec) in H. destruct (streq_spec n m); [now left|now right].
Qed.
Lemma only_keys o lt xs vars info : forall L st q, getstats rx (Some o) lt xs vars info L st = Ok q ->
  forall n, dget streq (fst q) n <> None -> n = o \/ dget streq st n <> None.
Proof.
  induction L as [|[k cs] L IH]; intros st q H n D; cbn [getstats] in H; [injection H as <-; now right|].
  destruct (streq_spec o k) as [->|NE]; cbn [negb] in H.
  - destruct (count_level rx lt xs vars info k cs st) as [c|] eqn:C1; [|discriminate]. cbn [bind] in H.
    destruct (getstats rx (Some k) lt xs vars info L (fst c)) as [r|] eqn:R1; [|discriminate]. cbn [bind] in H. injection H as <-. cbn [fst] in D.
    destruct (IH _ _ R1 n D) as [->|D2]; [now left|].
    assert (CK : forall cs st c, count_level rx lt xs vars info k cs st = Ok c -> dget streq (fst c) n <> None -> n = k \/ dget streq st n <> None).
    { clear. induction cs as [|[c t] cs IH]; intros st q H D; cbn [count_level] in H; [injection H as <-; now right|].
      destruct (test_coverage rx lt vars info c) as [t'|]; [|discriminate]. cbn [bind] in H.
      destruct (count_level rx lt xs vars info k cs _) as [r|] eqn:R1; [|discriminate]. cbn [bind] in H. injection H as <-. cbn [fst] in D.
      destruct (IH _ _ R1 D) as [X|X]; [now left|]. destruct (fst t'); [|now right]. now apply dget_stat_keys in X. }
    exact (CK _ _ _ C1 D2).
  - destruct (getstats rx (Some o) lt xs vars info L st) as [r|] eqn:R1; [|discriminate]. cbn [bind] in H. injection H as <-. cbn [fst] in D.
    exact (IH _ _ R1 n D).
Qed.
(** With --level the table is always empty and the script ends with an error: English has
    only that level. *)
Theorem C85_level_refuted w levels locs t : only w <> None -> locs <> [] ->
  coverage rx w levels locs = Ok t -> exists e, t = ([], Some e).
Proof.
  intros O NE. unfold coverage. destruct (lookup w (lit "en")) as [lt|]; [|discriminate].
  destruct (locale_stats rx w levels (lit "en") lt) as [en|] eqn:EN; [|discriminate]. cbn [bind].
  destruct (do_all rx w (snd en) locs) as [rs|] eqn:RS; [|discriminate]. cbn [bind]. intros H. injection H as <-.
  apply C85_english. split.
  - intros ->. destruct locs as [|l ls]; [congruence|]. cbn [do_all] in RS. destruct (doit rx w (snd en) l) as [q|]; [|discriminate]. cbn [bind] in RS.
    destruct (do_all rx w (snd q) ls); discriminate.
  - destruct (only w) as [o|] eqn:OW; [|congruence].
    assert (K : forall n, dget streq (fst (fst en)) n <> None -> n = o).
    { intros n D. unfold locale_stats in EN. destruct (getdoc w (lit "en")) as [[s root]|]; [|injection EN as <-; cbn in D; congruence].
      destruct (length (kids_of root) <? 2); [injection EN as <-; cbn in D; congruence|]. rewrite OW in EN.
      destruct (getstats rx (Some o) lt _ _ _ levels []) as [r|] eqn:G; [|discriminate]. cbn [bind] in EN. injection EN as <-. cbn [fst] in D.
      destruct (only_keys _ _ _ _ _ _ _ _ G n D) as [X|X]; [exact X|]. cbn in X. congruence. }
    destruct (dget streq (fst (fst en)) (lit "core")) eqn:C1; [|exists (lit "core"); split; [now left|exact C1]].
    destruct (dget streq (fst (fst en)) (lit "posix")) eqn:C2; [|exists (lit "posix"); split; [right; now left|exact C2]].
    exfalso. assert (A : lit "core" = o) by (apply K; congruence). assert (B : lit "posix" = o) by (apply K; congruence).
    rewrite <- B in A. vm_compute in A. discriminate A.
Qed.
(** A territory with exactly one calendar makes every expression with the calendars of the territory
    an error. *)
Lemma sub_clean f c : ~ In 37%N c -> forall fuel, length c <= fuel -> sub var_at f fuel c = Ok c.
Proof.
  induction c as [|x c IH]; intros NI fuel L; [destruct fuel; reflexivity|]. destruct fuel as [|fuel]; [cbn in L; lia|]. cbn [sub].
  assert (A : var_at (x :: c) = None).
  { unfold var_at. destruct x as [|p]; [reflexivity|]. repeat (destruct p as [p|p|]; try reflexivity). exfalso. apply NI. now left. }
  rewrite A, IH; [reflexivity|intros I; apply NI; now right|cbn in L; lia].
Qed.
Theorem C85_calendar_refuted w lt r cal pre post :
  region lt = Some r -> dget streq (calendars w) r = Some [cal] ->
  ~ In 37%N (pre ++ post) -> ~ In 36%N pre ->
  expand (vars w) (infos w lt) (pre ++ lit "${Target-Calendars}" ++ post) = Raise TypeError.
Proof.
  intros R C NP ND. unfold expand. rewrite in_app_iff in NP. rewrite sub_clean; [|rewrite !in_app_iff; intros [I|[I|I]]; [tauto| |tauto]|lia].
  2: { vm_compute in I. repeat (destruct I as [I|I]; [discriminate|]). exact I. }
  cbn [bind].
  assert (G : forall fuel, length (pre ++ lit "${Target-Calendars}" ++ post) <= fuel ->
     sub info_at (doinfo (infos w lt)) fuel (pre ++ lit "${Target-Calendars}" ++ post) = Raise TypeError).
  { clear NP. induction pre as [|x pre IH]; intros fuel L.
    - destruct fuel as [|fuel]; [rewrite !app_length in L; change (length (lit "${Target-Calendars}")) with 19 in L; lia|].
      assert (A : info_at (lit "${Target-Calendars}" ++ post) = Some (lit "Target-Calendars", post)) by reflexivity.
      change (sub info_at (doinfo (infos w lt)) (S fuel) ([] ++ lit "${Target-Calendars}" ++ post)) with
        (match info_at (lit "${Target-Calendars}" ++ post) with
         | Some (n, rest) => do a <- doinfo (infos w lt) n; do r <- sub info_at (doinfo (infos w lt)) fuel rest; Ok (a ++ r)
         | None => do r <- sub info_at (doinfo (infos w lt)) fuel (tl (lit "${Target-Calendars}") ++ post); Ok (36%N :: r) end).
      rewrite A. assert (D : doinfo (infos w lt) (lit "Target-Calendars") = Raise TypeError).
      { unfold infos. rewrite R, C. reflexivity. }
      rewrite D. reflexivity.
    - destruct fuel as [|fuel]; [cbn [app length] in L; lia|]. cbn [app sub].
      assert (A : info_at (x :: pre ++ lit "${Target-Calendars}" ++ post) = None).
      { unfold info_at. change (lit "${Target-") with (36%N :: tl (lit "${Target-")). cbn [strip_prefix].
        destruct (N.eqb_spec 36 x) as [<-|_]; [exfalso; apply ND; now left|reflexivity]. }
      rewrite A, IH; [reflexivity|intros I; apply ND; now right|cbn [app length] in L; lia]. }
  apply G. lia.
Qed.
End Main.
Lemma strip_prefix_Some p : forall s r, strip_prefix p s = Some r -> s = p ++ r.
Proof.
  induction p as [|x p IH]; intros s r H; cbn in H; [now injection H as <-|]. destruct s as [|y s]; [discriminate|].
  destruct (N.eqb_spec x y) as [->|]; [|discriminate]. cbn [app]. now rewrite (IH _ _ H).
Qed.
Lemma strip_prefix_app p r : strip_prefix p (p ++ r) = Some r.
Proof. induction p as [|x p IH]; [destruct r; reflexivity|]. cbn. now rewrite N.eqb_refl. Qed.
(** ** C85: where a variable or a target stands in an expression *)
Definition letter (c : N) : Prop := (97 <= c <= 122 \/ 65 <= c <= 90)%N.
Definition name_char (c : N) : Prop := (letter c \/ 48 <= c <= 57 \/ c = 95)%N.
Lemma span_spec p s : exists a b, span p s = (a, b) /\ s = a ++ b /\ (forall c, In c a -> p c = true) /\ (b = [] \/ exists c r, b = c :: r /\ p c = false).
Proof.
  induction s as [|c s (a & b & E & -> & Ha & Hb)]; [exists [], []; repeat split; [intros ? []|now left]|]. cbn [span]. destruct (p c) eqn:P.
  - rewrite E. exists (c :: a), b. repeat split; [|exact Hb]. intros x [<-|Hx]; auto.
  - exists [], (c :: a ++ b). repeat split; [intros ? []|right; now exists c, (a ++ b)].
Qed.
Lemma span_eq p a b : (forall c, In c a -> p c = true) -> (b = [] \/ exists c r, b = c :: r /\ p c = false) -> span p (a ++ b) = (a, b).
Proof.
  induction a as [|c a IH]; intros Ha Hb; cbn [app].
  - destruct Hb as [->|(c & r & -> & H)]; [reflexivity|]. cbn [span]. now rewrite H.
  - cbn [span]. rewrite (Ha c (or_introl eq_refl)), IH; [reflexivity| |exact Hb]. intros x Hx. apply Ha. now right.
Qed.
Lemma name_char_spec c : (is_alnum c || N.eqb c 95)%bool = true <-> name_char c.
Proof.
  unfold is_alnum, name_char, letter. rewrite !orb_true_iff, !andb_true_iff, !N.leb_le, N.eqb_eq. tauto.
Qed.
Lemma letter_spec c : (is_alnum c && negb (N.leb 48 c && N.leb c 57))%bool = true <-> letter c.
Proof.
  unfold is_alnum, letter.
  destruct (N.leb_spec 65 c), (N.leb_spec c 90), (N.leb_spec 97 c), (N.leb_spec c 122), (N.leb_spec 48 c), (N.leb_spec c 57); cbn; split; intro; try reflexivity; try discriminate; lia.
Qed.
Theorem C85_names s n rest :
  (var_at s = Some (n, rest) <->
     s = lit "%" ++ n ++ rest /\ n <> [] /\ (forall c, In c n -> name_char c) /\ (rest = [] \/ exists c r, rest = c :: r /\ ~ name_char c)) /\
  (info_at s = Some (n, rest) <->
     exists x, n = lit "Target-" ++ x /\ s = lit "${Target-" ++ x ++ lit "}" ++ rest /\ x <> [] /\ forall c, In c x -> letter c).
Proof.
  assert (forall c, (is_alnum c || N.eqb c 95)%bool = false <-> ~ name_char c) as Nf
    by (intro c; rewrite <- name_char_spec; destruct (is_alnum c || N.eqb c 95)%bool; intuition congruence).
  split.
  - split.
    + intros H. destruct s as [|c s]; [discriminate|]. destruct (N.eqb_spec c 37) as [->|Hc].
      2: { exfalso. unfold var_at in H. destruct c as [|p]; [discriminate|]. repeat (destruct p as [p|p|]; try discriminate). now apply Hc. }
      cbn [var_at] in H. destruct (span_spec (fun c => is_alnum c || N.eqb c 95)%bool s) as (a & b & E & -> & Ha & Hb). rewrite E in H.
      destruct a as [|x a]; [discriminate|]. injection H as <- <-. split; [reflexivity|]. split; [discriminate|]. split.
      * intros c Hin. now apply name_char_spec, Ha.
      * destruct Hb as [->|(c & r & -> & Hc)]; [now left|right]. exists c, r. split; [reflexivity|now apply Nf].
    + intros (-> & Nn & Hn & Hr). change (lit "%" ++ n ++ rest) with (37%N :: n ++ rest). cbn [var_at].
      rewrite span_eq.
      * destruct n; [congruence|reflexivity].
      * intros c Hc. now apply name_char_spec, Hn.
      * destruct Hr as [->|(c & r & -> & Hc)]; [now left|right]. exists c, r. split; [reflexivity|now apply Nf].
  - unfold info_at. split.
    + destruct (strip_prefix (lit "${Target-") s) as [s'|] eqn:E; [|discriminate]. apply strip_prefix_Some in E. subst s.
      destruct (span_spec (fun c => is_alnum c && negb (N.leb 48 c && N.leb c 57))%bool s') as (a & b & E & -> & Ha & _). rewrite E.
      destruct a as [|x a]; [discriminate|]. destruct b as [|y b]; [discriminate|]. destruct (N.eqb_spec y 125) as [->|Hy].
      * intros H. injection H as <- <-. exists (x :: a). repeat split; [discriminate|]. intros c Hc. now apply letter_spec, Ha.
      * intros H. exfalso. destruct y as [|p]; [discriminate|]. repeat (destruct p as [p|p|]; try discriminate). now apply Hy.
    + intros (x & -> & -> & Nx & Hx). rewrite strip_prefix_app, span_eq.
      * destruct x; [congruence|reflexivity].
      * intros c Hc. now apply letter_spec, Hx.
      * right. exists 125%N, rest. split; reflexivity.
Qed.

(** what stands for a variable: its value, nothing if it has none *)
Theorem C85_variables vars n v : NoDup (map fst vars) ->
  dovar vars n = Ok v <-> In (n, v) vars \/ ((forall x, ~ In (n, x) vars) /\ v = []).
Proof.
  intros ND. unfold dovar. destruct (dget streq vars n) as [x|] eqn:D; split.
  - intros H. injection H as <-. left. now apply (dget_In _ streq_spec).
  - intros [I|[I _]]; [|exfalso; apply (I x); now apply (dget_In _ streq_spec)].
    apply (dget_NoDup_In _ streq_spec) in I; [|exact ND]. congruence.
  - intros H. injection H as <-. right. split; [|reflexivity]. intros x I.
    apply (dget_NoDup_In _ streq_spec) in I; [congruence|exact ND].
  - intros [I|[_ ->]]; [|reflexivity]. apply (dget_NoDup_In _ streq_spec) in I; [congruence|exact ND].
Qed.
(** what stands for a target: the part of the tag, the currency of its territory, its calendars *)
Theorem C85_targets w lt :
  doinfo (infos w lt) (lit "Target-Language") = Ok (match lang lt with Some l => l | None => [] end) /\
  doinfo (infos w lt) (lit "Target-Scripts") = Ok (match script lt with Some s => s | None => [] end) /\
  doinfo (infos w lt) (lit "Target-Territories") = Ok (match region lt with Some r => r | None => [] end) /\
  (forall r c, region lt = Some r -> dget streq (currencies w) r = Some c -> doinfo (infos w lt) (lit "Target-Currencies") = Ok c) /\
  (forall r a b l, region lt = Some r -> dget streq (calendars w) r = Some (a :: b :: l) ->
     doinfo (infos w lt) (lit "Target-Calendars") = Ok (lit "(" ++ a ++ flat_map (fun c => lit "|" ++ c) (b :: l) ++ lit ")")) /\
  (region lt = None -> doinfo (infos w lt) (lit "Target-Currencies") = Ok [] /\ doinfo (infos w lt) (lit "Target-Calendars") = Ok []) /\
  doinfo (infos w lt) (lit "Target-TimeZones") = Ok [] /\ doinfo (infos w lt) (lit "Target-Plurals") = Ok [].
Proof.
  repeat split.
  - intros r c R C. unfold infos. rewrite R, C. reflexivity.
  - intros r a b l R C. unfold infos. rewrite R, C.
    change (Ok (lit "(" ++ join (lit "|") (a :: b :: l) ++ lit ")") = Ok (lit "(" ++ a ++ flat_map (fun c => lit "|" ++ c) (b :: l) ++ lit ")")).
    do 2 f_equal. rewrite app_assoc. f_equal. clear C. generalize (b :: l). intros k. revert a. induction k as [|x k IH]; intros a; [now rewrite app_nil_r|].
    change (join (lit "|") (a :: x :: k)) with (a ++ lit "|" ++ join (lit "|") (x :: k)). rewrite IH. cbn [flat_map]. now rewrite <- !app_assoc.
  - unfold infos. now rewrite H.
  - unfold infos. now rewrite H.
Qed.

(** * The hypotheses are met *)
Definition eng_root : elem := El (lit "ldml") (Some [])
  [El (lit "/a") (Some []) [El (lit "/a/x") (Some (lit "1")) []; El (lit "/a/y") None []; El (lit "/a/z") (Some []) []];
   El (lit "/b") (Some (lit "t")) [El (lit "/b/q") (Some (lit "u")) []]].
(** a regular expression of the example is a prefix *)
Definition rx1 (p x : pystr) : bool := startswith p x.
Definition lv1 : levels_t :=
  map (fun k => (k, [(Cl None None None (Some (lit "/%P")), None); (Cl (Some (lit "${Target-Language}")) None (Some (lit "GB")) (Some (lit "/b")), None)])) levelnames.
Definition w1 : world := W None [(lit "P", lit "a")] [] [] (fun l => Some (Lt (Some l) (Some (lit "Latn")) (Some (lit "GB"))))
  (fun l => if streq l (lit "xx") then None else Some (lit "cldr", eng_root)).
Example C85_met : map (getxpaths) [eng_root] = [[lit "/a/x"; lit "/a/y"; lit "/b"]] /\
  (exists L, locale_stats rx1 w1 lv1 (lit "en") (Lt (Some (lit "en")) (Some (lit "Latn")) (Some (lit "GB"))) =
     Ok (map (fun k => (k, 3)) levelnames, Some (lit "cldr"), L)) /\ NoDup (map fst lv1).
Proof.
  split; [vm_compute; reflexivity|]. split; [eexists; vm_compute; reflexivity|].
  unfold lv1, levelnames. cbn [map fst].
  repeat constructor; intros I; vm_compute in I; repeat (destruct I as [I|I]; [discriminate|]); exact I.
Qed.
Example C85_met_rows : exists rows, coverage rx1 w1 lv1 [lit "xx"; lit "en"; lit "de"] = Ok (rows, None) /\ map (fun r => fst (fst r)) rows = [lit "de"; lit "en"].
Proof. eexists. split; vm_compute; reflexivity. Qed.
Definition w2 : world := W (Some (lit "basic")) [(lit "P", lit "a")] [] [] (lookup w1) (getdoc w1).
Example C85_met_level : exists t, coverage rx1 w2 lv1 [lit "en"] = Ok t.
Proof. eexists. vm_compute. reflexivity. Qed.

Example C85_met_names : var_at (lit "%a_Z9-x") = Some (lit "a_Z9", lit "-x") /\
  info_at (lit "${Target-Scripts}/") = Some (lit "Target-Scripts", lit "/") /\
  doinfo (infos (W None [] [(lit "TH", [lit "buddhist"; lit "gregorian"])] [] (fun _ => None) (fun _ => None)) (Lt None None (Some (lit "TH")))) (lit "Target-Calendars") =
    Ok (lit "(buddhist|gregorian)").
Proof. repeat split; vm_compute; reflexivity. Qed.

Print Assumptions C85_paths.
Print Assumptions C85_counts.
Print Assumptions C85_independent.
Print Assumptions C85_rows.
Print Assumptions C85_english.
Print Assumptions C85_layout_refuted.
Print Assumptions C85_level_refuted.
Print Assumptions C85_calendar_refuted.
Print Assumptions C85_names.
Print Assumptions C85_variables.
Print Assumptions C85_targets.
