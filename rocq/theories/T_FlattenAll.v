(** C82: flattening many locales at once gives the same files and the same report whatever the
    order in which the worker processes do their work. *)
From Coq Require Import String.
From Verif Require Import Py PyFacts M_LdmlBase M_FlattenAll T_AddFonts.
Local Open Scope list_scope.
Local Open Scope nat_scope.

Section Spec.
  Variable D : Type.
  Variable flatten : store -> bool -> pystr -> res (option D).
  Variable revid : option pystr.
  Variable git : bool.
  Variable git_log : D -> res pystr.
  Variable add_revid : pystr -> D -> res D.
  Variable alphadir : bool.
  Variable outdir : option pystr.
  Variable lower : N -> pystr.
  Variable write : D -> list (list N) * option exn.
  Notation begin := (begin D flatten revid git git_log add_revid alphadir outdir lower write).
  Notation out_path := (out_path alphadir outdir lower).
  Notation identify := (identify D revid git git_log add_revid).
  Notation step := (step D flatten revid git git_log add_revid alphadir outdir lower write).
  Notation pool_step := (pool_step D flatten revid git git_log add_revid alphadir outdir lower write).
  Notation run := (run D flatten revid git git_log add_revid alphadir outdir lower write).
  Notation single_run := (single_run D flatten revid git git_log add_revid alphadir outdir lower write).

  (** * Specification *)

  (** where the result for a locale goes *)
  Definition placed (l p : pystr) : Prop :=
    exists o, outdir = Some o /\
      ((alphadir = false /\ p = path_join o (l ++ lit ".xml")) \/
       (alphadir = true /\ exists c r, l = c :: r /\ p = path_join (path_join o (lower c)) (l ++ lit ".xml"))).
  Definition unplaced (l : pystr) (x : exn) : Prop :=
    (alphadir = true /\ l = [] /\ x = IndexError) \/
    ((alphadir = false \/ l <> []) /\ outdir = None /\ x = TypeError).
  (** the document with its revision *)
  Definition no_revid : Prop := revid = None \/ revid = Some [].
  Definition marked (d d' : D) : Prop :=
    (exists r, revid = Some r /\ r <> [] /\ add_revid r d = Ok d') \/
    (no_revid /\ git = true /\ exists rev date, git_log d = Ok (rev ++ 10%N :: date) /\
       ~ In 10%N rev /\ ~ In 10%N date /\ add_revid rev d = Ok d') \/
    (no_revid /\ git = false /\ d' = d).
  Definition unmarked (d : D) (x : exn) : Prop :=
    (exists r, revid = Some r /\ r <> [] /\ add_revid r d = Raise x) \/
    (no_revid /\ git = true /\
      (git_log d = Raise x \/
       (exists log, git_log d = Ok log /\ x = ValueError /\
          forall rev date, ~ In 10%N rev -> ~ In 10%N date -> log <> rev ++ 10%N :: date) \/
       (exists rev date, git_log d = Ok (rev ++ 10%N :: date) /\
          ~ In 10%N rev /\ ~ In 10%N date /\ add_revid rev d = Raise x))).

  (** the locale [l] has the result [c], stored at [p] *)
  Definition yields (s : store) (coll : bool) (l p : pystr) (c : list N) : Prop :=
    exists d d' pieces x, flatten s coll l = Ok (Some d) /\ marked d d' /\ placed l p /\
      write d' = (pieces, x) /\ c = concat pieces.
  (** dealing with [l] ends in an exception that [doit] does not catch *)
  Definition breaks (s : store) (single : bool) (l : pystr) (x : exn) : Prop :=
    (single = true /\ flatten s single l = Raise x) \/
    exists d, flatten s single l = Ok (Some d) /\
      (unmarked d x \/ exists d', marked d d' /\
         (unplaced l x \/ exists p pieces, placed l p /\ write d' = (pieces, Some x))).
  (** what is said about [l] *)
  Definition answers (s : store) (single : bool) (l : pystr) (r : result) : Prop :=
    (single = false /\ exists x, flatten s single l = Raise x /\ r = (false, l, Some x)) \/
    (flatten s single l = Ok None /\ r = (false, l, None)) \/
    (exists p c, yields s single l p c /\ (forall x, ~ breaks s single l x) /\ r = (true, l, None)).
  (** a list of locales is dealt with in order up to the first exception *)
  Inductive handled (s : store) (single : bool) : list pystr -> list pystr -> option exn -> Prop :=
  | handled_all : handled s single [] [] None
  | handled_next l ls done x r : answers s single l r -> handled s single ls done x ->
      handled s single (l :: ls) (l :: done) x
  | handled_stop l ls x : breaks s single l x -> handled s single (l :: ls) [l] (Some x).
  (** the files: the results of the locales in [done], and everything else as it was *)
  Definition result_files (s : store) (single : bool) (done : list pystr) (s' : store) : Prop :=
    (forall l p c, In l done -> yields s single l p c -> s' p = Some c) /\
    (forall p, (forall l c, In l done -> ~ yields s single l p c) -> s' p = s p).

  (** no output is read *)
  Definition isolated (ls : list pystr) : Prop :=
    forall s s' coll l, (forall p, (forall l', In l' ls -> ~ placed l' p) -> s p = s' p) ->
      flatten s coll l = flatten s' coll l.
  Definition plain (l : pystr) : Prop := ~ In 47%N l.

  (** * The model and the specification *)
  Lemma out_path_ok l p : out_path l = Ok p <-> placed l p.
  Proof.
    unfold M_FlattenAll.out_path, placed. destruct alphadir.
    - destruct l as [|c r].
      + split; [discriminate|]. intros (o & _ & [[H _]|(_ & c & r & H & _)]); discriminate.
      + destruct outdir as [o|]; split; try discriminate.
        * intro E. injection E as <-. exists o. split; [reflexivity|]. right. split; [reflexivity|]. exists c, r. auto.
        * intros (o' & E & [[H _]|(_ & c' & r' & H & ->)]); [discriminate|]. injection E as <-. injection H as <- <-. reflexivity.
        * intros (o' & E & _). discriminate.
    - destruct outdir as [o|]; split; try discriminate.
      + intro E. injection E as <-. exists o. split; [reflexivity|]. left. auto.
      + intros (o' & E & [[_ ->]|[H _]]); [|discriminate]. injection E as <-. reflexivity.
      + intros (o' & E & _). discriminate.
  Qed.
  Lemma out_path_bad l x : out_path l = Raise x -> unplaced l x.
  Proof.
    unfold M_FlattenAll.out_path, unplaced. destruct alphadir.
    - destruct l as [|c r]; [intro E; injection E as <-; auto|]. destruct outdir; [discriminate|].
      intro E. injection E as <-. right. split; [right; discriminate|auto].
    - destruct outdir; [discriminate|]. intro E. injection E as <-. right. auto.
  Qed.
  Lemma split_on_cons c s : split_on c s <> [].
  Proof. destruct s as [|d s]; cbn; [discriminate|]. destruct (N.eqb d c); [discriminate|]. destruct (split_on c s); discriminate. Qed.
  Lemma split_two log a b : split_on 10%N log = [a; b] <-> log = a ++ 10%N :: b /\ ~ In 10%N a /\ ~ In 10%N b.
  Proof.
    split.
    - revert a b. induction log as [|c log IH]; intros a b E; cbn in E; [discriminate|].
      destruct (N.eqb_spec c 10) as [->|N].
      + injection E as <- E. assert (log = b /\ ~ In 10%N b) as [-> Nb]; [|auto].
        clear IH. revert b E. induction log as [|d log IH]; intros b E; cbn in E.
        * injection E as <-. auto.
        * destruct (N.eqb_spec d 10) as [->|Nd]; [injection E as _ E; now apply split_on_cons in E|].
          destruct (split_on 10%N log) as [|h t] eqn:Es; [now apply split_on_cons in Es|].
          injection E as <- ->. destruct (IH h eq_refl) as [-> Nh]. split; [reflexivity|]. intros [X|X]; [congruence|auto].
      + destruct (split_on 10%N log) as [|h t] eqn:Es; [discriminate|]. injection E as <- ->.
        destruct (IH h b eq_refl) as (-> & Nh & Nb). split; [reflexivity|]. split; [|assumption]. intros [X|X]; [congruence|auto].
    - intros (-> & Na & Nb). induction a as [|c a IH]; cbn.
      + f_equal. clear Na. induction b as [|d b IH]; [reflexivity|]. cbn. destruct (N.eqb_spec d 10) as [->|_]; [exfalso; apply Nb; now left|].
        rewrite IH; [reflexivity|]. intro; apply Nb; now right.
      + destruct (N.eqb_spec c 10) as [->|_]; [exfalso; apply Na; now left|]. rewrite IH; [reflexivity|]. intro; apply Na; now right.
  Qed.
  Lemma identify_ok d d' : identify d = Ok d' <-> marked d d'.
  Proof.
    unfold M_FlattenAll.identify, marked, no_revid, dogit. destruct revid as [[|c r]|].
    2:{ split.
        - intro E. left. exists (c :: r). split; [reflexivity|]. split; [discriminate|assumption].
        - intros [(r' & E & _ & H)|[([H|H] & _)|([H|H] & _)]]; try discriminate. injection E as <-. exact H. }
    all: assert (forall x : D, Ok d = Ok x <-> x = d) as K by (intro x; split; [intro E; now injection E|now intros ->]).
    all: destruct git; split.
    1, 5: intro E; right; left; split; [auto|]; split; [reflexivity|];
      destruct (git_log d) as [log|]; [|discriminate]; cbn [bind] in E;
      destruct (split_on 10%N log) as [|a [|b [|]]] eqn:Es; try discriminate; cbn [bind] in E;
      apply split_two in Es as (-> & Na & Nb); exists a, b; auto.
    all: try (intro E; apply K in E; right; right; split; [auto|]; split; [reflexivity|exact E]).
    all: intros [(r' & E & N & H)|[(H & G & rev & date & El & Nr & Nd & H2)|(H & G & E)]]; try discriminate.
    all: try (injection E as <-; congruence).
    all: try (now apply K).
    all: rewrite El; cbn [bind]; rewrite (proj2 (split_two _ _ _) (conj eq_refl (conj Nr Nd))); cbn [bind]; exact H2.
  Qed.
  Lemma identify_bad d x : identify d = Raise x -> unmarked d x.
  Proof.
    unfold M_FlattenAll.identify, unmarked, no_revid, dogit. intro E. destruct revid as [[|c r]|].
    2:{ left. exists (c :: r). split; [reflexivity|]. split; [discriminate|assumption]. }
    all: right; destruct git; [|discriminate]; split; [auto|]; split; [reflexivity|];
      destruct (git_log d) as [log|y]; [|left; cbn [bind] in E; injection E as <-; reflexivity]; cbn [bind] in E; right;
      assert ((exists a b, split_on 10%N log = [a; b]) \/ (forall a b, split_on 10%N log <> [a; b])) as [(a & b & Es)|Ns]
        by (destruct (split_on 10%N log) as [|a [|b [|]]]; [right; discriminate|right; discriminate|left; eauto|right; discriminate]);
      [rewrite Es in E; cbn [bind] in E; apply split_two in Es as (-> & Na & Nb); right; exists a, b; auto|
       left; exists log; split; [reflexivity|]; split;
        [destruct (split_on 10%N log) as [|a [|b [|]]]; try (now injection E); exfalso; eapply Ns; reflexivity
        |intros a b Na Nb ->; apply (Ns a b); apply split_two; auto]].
  Qed.

  Lemma begin_spec single s l :
    match begin single s l with
    | Verdict r => answers s single l r /\ (forall p c, ~ yields s single l p c)
    | Crash x => breaks s single l x /\ (forall p c, ~ yields s single l p c)
    | Output p pieces x => yields s single l p (concat pieces) /\
        match x with Some e => breaks s single l e | None => answers s single l (true, l, None) end
    end.
  Proof.
    unfold M_FlattenAll.begin. destruct (flatten s single l) as [[d|]|x] eqn:Ef.
    - destruct (identify d) as [d'|x] eqn:Ei.
      + pose proof (proj1 (identify_ok _ _) Ei) as Hm. destruct (out_path l) as [p|x] eqn:Ep.
        * pose proof (proj1 (out_path_ok _ _) Ep) as Hp. destruct (write d') as [cs x] eqn:Ew.
          assert (yields s single l p (concat cs)) as Y by (exists d, d', cs, x; auto).
          split; [assumption|]. destruct x as [x|].
          -- right. exists d. split; [assumption|]. right. exists d'. split; [assumption|]. right. eauto.
          -- right. right. exists p, (concat cs). split; [assumption|]. split; [|reflexivity].
             intros x [[-> E]|(d0 & E & [U|(d1 & M & [U|(q & cs' & _ & W)])])].
             ++ congruence.
             ++ rewrite Ef in E. injection E as <-. clear -Ei U. unfold M_FlattenAll.identify, dogit in Ei. unfold unmarked, no_revid in U.
                destruct U as [(r & E & N & A)|(NR & G & U)].
                { rewrite E in Ei. destruct r; [congruence|]. congruence. }
                assert ((do r <- (do log <- git_log d; match split_on 10%N log with [rev; _] => Ok rev | _ => Raise ValueError end); add_revid r d) = Ok d') as Ei'
                  by (destruct NR as [->| ->]; rewrite G in Ei; exact Ei).
                destruct U as [U|[(log & U & _ & N)|(a & b & U & Na & Nb & A)]]; rewrite U in Ei'; cbn [bind] in Ei'; [discriminate| |].
                { destruct (split_on 10%N log) as [|a [|b [|]]] eqn:Es; try discriminate. apply split_two in Es as (E & Na & Nb). now apply (N a b). }
                { rewrite (proj2 (split_two _ _ _) (conj eq_refl (conj Na Nb))) in Ei'. cbn [bind] in Ei'. congruence. }
             ++ clear -Ep U. unfold M_FlattenAll.out_path in Ep. unfold unplaced in U.
                destruct U as [(A & -> & _)|([A|A] & O & _)].
                { rewrite A in Ep. discriminate. } { rewrite A, O in Ep. discriminate. }
                { rewrite O in Ep. destruct alphadir; [destruct l; [congruence|discriminate]|discriminate]. }
             ++ rewrite Ef in E. injection E as <-. apply identify_ok in M. congruence.
        * split.
          -- right. exists d. split; [assumption|]. right. exists d'. split; [assumption|]. left. now apply out_path_bad.
          -- intros p c (d0 & d1 & cs & y & _ & _ & P & _). apply out_path_ok in P. congruence.
      + split.
        -- right. exists d. split; [assumption|]. left. now apply identify_bad.
        -- intros p c (d0 & d1 & cs & y & E & M & _). rewrite Ef in E. injection E as <-. apply identify_ok in M. congruence.
    - split; [right; left; auto|]. intros p c (d0 & d1 & cs & y & E & _). congruence.
    - assert (forall p c, ~ yields s single l p c) as N by (intros p c (d0 & d1 & cs & y & E & _); congruence).
      destruct single; [split; [left; auto|assumption]|]. split; [left; split; [reflexivity|eauto]|assumption].
  Qed.
  Lemma yields_begin single s l p c : yields s single l p c -> exists cs x, begin single s l = Output p cs x /\ c = concat cs.
  Proof.
    intros (d & d' & cs & x & E & M & P & W & ->). exists cs, x. split; [|reflexivity].
    unfold M_FlattenAll.begin. rewrite E. apply identify_ok in M. rewrite M. apply out_path_ok in P. rewrite P, W. reflexivity.
  Qed.
  Lemma begin_placed single s l p cs x : begin single s l = Output p cs x -> placed l p.
  Proof. intro E. pose proof (begin_spec single s l) as B. rewrite E in B. destruct B as [(d & d' & c & y & _ & _ & P & _) _]. exact P. Qed.

  (** different locales have different places *)
  Lemma path_join_tail a b : plain b -> (exists c r, b = c :: r) -> path_join a b = b \/ exists a', path_join a b = a' ++ 47%N :: b.
  Proof.
    intros P (c & r & ->). unfold path_join. destruct (N.eq_dec c 47) as [->|N]; [exfalso; apply P; now left|].
    assert (forall (X : Type) (u v : X), match c with 47%N => u | _ => v end = v) as M.
    { intros X u v. destruct c as [|[[[[[[]|[]|]|[]|]|[]|]|[]|]|[]|]]; try reflexivity. all: try (destruct p; reflexivity). congruence. }
    rewrite M. destruct (rev a) as [|d e] eqn:E; [now left|]. right.
    assert (a = rev e ++ [d]) as -> by (rewrite <- (rev_involutive a), E; reflexivity).
    destruct (N.eq_dec d 47) as [->|Nd].
    - exists (rev e). now rewrite <- app_assoc.
    - exists (rev e ++ [d]). destruct d as [|[[[[[[]|[]|]|[]|]|[]|]|[]|]|[]|]]; try reflexivity. all: try (destruct p; reflexivity). congruence.
  Qed.
  Lemma last_part b c : plain b -> plain c -> 
    (forall x y : list N, x ++ 47%N :: b = y ++ 47%N :: c -> b = c) /\ (forall x, x ++ 47%N :: b <> c).
  Proof.
    intros Pb Pc. split.
    - intro x. induction x as [|h x IH]; intros [|k y] E; cbn in E.
      + congruence.
      + injection E as <- E. exfalso. apply Pb. rewrite E. apply in_app_iff. right. now left.
      + injection E as -> E. exfalso. apply Pc. rewrite <- E. apply in_app_iff. right. now left.
      + injection E as _ E. eapply IH; eassumption.
    - intros x E. apply Pc. rewrite <- E. apply in_app_iff. right. now left.
  Qed.
  Lemma placed_inj l l' p : plain l -> plain l' -> placed l p -> placed l' p -> l = l'.
  Proof.
    intros P P' H H'.
    assert (forall l, plain l -> plain (l ++ lit ".xml") /\ (exists c r, l ++ lit ".xml" = c :: r)) as A.
    { intros k Pk. split; [|destruct k; [exists 46%N; eexists; reflexivity|cbn; eauto]].
      intro X. apply in_app_iff in X as [X|X]; [now apply Pk|]. vm_compute in X. intuition discriminate. }
    destruct (A l P) as [Q1 Q2], (A l' P') as [Q1' Q2'].
    assert (forall k, placed k p -> exists b, p = path_join b (k ++ lit ".xml")) as B.
    { intros k (o & _ & [[_ ->]|(_ & c & r & _ & ->)]); eauto. }
    destruct (B l H) as [b E], (B l' H') as [b' E'].
    assert (l ++ lit ".xml" = l' ++ lit ".xml") as X.
    { destruct (path_join_tail b _ Q1 Q2) as [T|[t T]], (path_join_tail b' _ Q1' Q2') as [T'|[t' T']].
      - congruence.
      - exfalso. apply (proj2 (last_part _ _ Q1' Q1) t'). congruence.
      - exfalso. apply (proj2 (last_part _ _ Q1 Q1') t). congruence.
      - apply (proj1 (last_part _ _ Q1 Q1') t t'). congruence. }
    now apply app_inv_tail in X.
  Qed.

  (** * Bytes *)
  Definition good (f c : list N) (n : nat) : Prop := forall j, j < n -> nth_error f j = nth_error c j.
  Lemma nth_error_none (A : Type) (l : list A) j : length l <= j -> nth_error l j = None.
  Proof. apply nth_error_None. Qed.
  Lemma nth_firstn (A : Type) (l : list A) n j : nth_error (firstn n l) j = if j <? n then nth_error l j else None.
  Proof.
    revert l j. induction n as [|n IH]; intros [|x l] j; cbn [firstn].
    - destruct j; reflexivity.
    - destruct j; reflexivity.
    - destruct (j <? S n); destruct j; reflexivity.
    - destruct j as [|j]; cbn [nth_error]; [reflexivity|]. rewrite IH. destruct (Nat.ltb_spec j n), (Nat.ltb_spec (S j) (S n)); try lia; reflexivity.
  Qed.
  Lemma nth_skipn (A : Type) (l : list A) n j : nth_error (skipn n l) j = nth_error l (n + j).
  Proof. revert l. induction n as [|n IH]; intros l; [reflexivity|]. destruct l as [|x l]; cbn; [now destruct j|apply IH]. Qed.
  Lemma overwrite_nth f q b j :
    nth_error (overwrite f q b) j =
    if j <? q then (if j <? length f then nth_error f j else Some 0%N)
    else if j <? q + length b then nth_error b (j - q) else nth_error f j.
  Proof.
    unfold overwrite. pose proof (firstn_length q f) as L1. pose proof (repeat_length 0%N (q - length f)) as L2.
    destruct (Nat.ltb_spec j q) as [Hq|Hq].
    - destruct (Nat.ltb_spec j (length f)) as [Hf|Hf].
      + rewrite nth_error_app1 by lia. rewrite nth_firstn. destruct (Nat.ltb_spec j q); [reflexivity|lia].
      + rewrite nth_error_app2 by lia. rewrite nth_error_app1 by lia. rewrite nth_error_repeat by lia. reflexivity.
    - rewrite nth_error_app2 by lia. rewrite nth_error_app2 by lia.
      replace (j - length (firstn q f) - length (repeat 0%N (q - length f))) with (j - q) by lia.
      destruct (Nat.ltb_spec j (q + length b)).
      + now rewrite nth_error_app1 by lia.
      + rewrite nth_error_app2 by lia. rewrite nth_skipn. f_equal. lia.
  Qed.
  Lemma overwrite_length f q b : length (overwrite f q b) = Nat.max (length f) (q + length b).
  Proof.
    unfold overwrite. rewrite !app_length, repeat_length, firstn_length, skipn_length. lia.
  Qed.
  Lemma overwrite_good f c a b z n : c = a ++ b ++ z -> length f <= length c -> good f c n ->
    n <= length f ->
    good (overwrite f (length a) b) c n /\ length (overwrite f (length a) b) <= length c.
  Proof.
    intros -> L G Ln. split.
    - intros j Hj. rewrite overwrite_nth. destruct (Nat.ltb_spec j (length a)).
      + destruct (Nat.ltb_spec j (length f)); [now apply G|lia].
      + destruct (Nat.ltb_spec j (length a + length b)); [|now apply G].
        rewrite nth_error_app2 by lia. now rewrite nth_error_app1 by lia.
    - rewrite overwrite_length, !app_length in *. lia.
  Qed.
  Lemma overwrite_more f c a b z : c = a ++ b ++ z -> length f <= length c -> good f c (length a) -> length a <= length f ->
    good (overwrite f (length a) b) c (length a + length b) /\ length a + length b <= length (overwrite f (length a) b).
  Proof.
    intros -> L G La. split.
    - intros j Hj. rewrite overwrite_nth. destruct (Nat.ltb_spec j (length a)).
      + destruct (Nat.ltb_spec j (length f)); [now apply G|lia].
      + destruct (Nat.ltb_spec j (length a + length b)); [|lia].
        rewrite nth_error_app2 by lia. now rewrite nth_error_app1 by lia.
    - rewrite overwrite_length. lia.
  Qed.
  Lemma nth_error_ext_all (l l' : list N) : (forall j, nth_error l j = nth_error l' j) -> l = l'.
  Proof.
    revert l'. induction l as [|x l IH]; intros [|y l'] H; [reflexivity|specialize (H 0); discriminate|specialize (H 0); discriminate|].
    pose proof (H 0) as H0. injection H0 as ->. f_equal. apply IH. intro j. apply (H (S j)).
  Qed.
  Lemma good_all f c : length f <= length c -> good f c (length c) -> f = c.
  Proof.
    intros L G. apply nth_error_ext_all. intro j. destruct (Nat.lt_ge_cases j (length c)); [now apply G|].
    rewrite !nth_error_none by lia. reflexivity.
  Qed.

  Lemma Forall2_weaken (A B : Type) (R R' : A -> B -> Prop) l l' : (forall a b, R a b -> R' a b) -> Forall2 R l l' -> Forall2 R' l l'.
  Proof. intros H F. induction F; constructor; auto. Qed.

  (** * The pool *)
  Section Run.
    Variable s0 : store.
    Variable ls : list pystr.
    Hypothesis Iso : isolated ls.
    Hypothesis Pl : Forall plain ls.
    Let o (l : pystr) : outcome := begin false s0 l.

    Definition says (l : pystr) (r : result) : Prop :=
      o l = Verdict r \/ exists p cs, o l = Output p cs None /\ r = (true, l, None).
    Definition raises (l : pystr) (x : exn) : Prop := o l = Crash x \/ exists p cs, o l = Output p cs (Some x).

    Lemma out_unique l l' p cs x cs' x' : In l ls -> In l' ls -> o l = Output p cs x -> o l' = Output p cs' x' -> cs = cs' /\ x = x'.
    Proof.
      intros H H' E E'. rewrite Forall_forall in Pl.
      assert (l = l') as <-. { eapply placed_inj; [now apply Pl|now apply Pl| |]; eapply begin_placed; eassumption. }
      rewrite E in E'. now injection E' as <- <-.
    Qed.

    (** [opened b p pos]: the worker of [b] has opened [p] and, since then, written the first [pos] bytes *)
    Definition opened (b : batch) (p : pystr) (pos : nat) : Prop :=
      (exists l cs x, In l (firstn (b_next b) (b_items b)) /\ o l = Output p cs x /\ pos = length (concat cs)) \/
      (exists l cs x, b_cur b = Some (l, p, Some pos, cs, x)).
    Record binv (b : batch) : Prop := {
      bi_items : incl (b_items b) ls;
      bi_next : b_next b <= length (b_items b);
      bi_failed : forall x, b_failed b = Some x -> b_cur b = None /\ exists pre l,
        firstn (b_next b) (b_items b) = pre ++ [l] /\ Forall2 says pre (b_results b) /\ raises l x;
      bi_fine : b_failed b = None -> Forall2 says (firstn (b_next b) (b_items b)) (b_results b);
      bi_cur : forall l p pos cs x, b_cur b = Some (l, p, pos, cs, x) ->
        nth_error (b_items b) (b_next b) = Some l /\ exists w, o l = Output p (w ++ cs) x /\
          match pos with None => w = [] | Some n => n = length (concat w) end }.
    Definition finv (s : store) (bs : list batch) : Prop := forall p,
      (s p = s0 p /\ forall i b pos, nth_error bs i = Some b -> ~ opened b p pos) \/
      (exists f l cs x, In l ls /\ o l = Output p cs x /\ s p = Some f /\ length f <= length (concat cs) /\
         exists i b pos, nth_error bs i = Some b /\ opened b p pos /\ pos <= length f /\ good f (concat cs) pos).
    Definition einv (P : pool) : Prop :=
      match first_exn P with
      | None => forall i b, nth_error (batches P) i = Some b -> b_failed b = None
      | Some x => exists i b, nth_error (batches P) i = Some b /\ b_failed b = Some x
      end.
    Definition inv (P : pool) : Prop :=
      (forall i b, nth_error (batches P) i = Some b -> binv b) /\ finv (files P) (batches P) /\ einv P.

    Lemma opened_out b p pos : binv b -> opened b p pos -> exists l cs x, In l ls /\ o l = Output p cs x.
    Proof.
      intros B [(l & cs & x & Hin & E & _)|(l & cs & x & Ec)].
      - exists l, cs, x. split; [|assumption]. apply (bi_items b B). rewrite <- (firstn_skipn (b_next b)). apply in_app_iff. now left.
      - destruct (bi_cur b B _ _ _ _ _ Ec) as (Hn & w & E & _). apply nth_error_In in Hn.
        exists l, (w ++ cs), x. split; [now apply (bi_items b B)|assumption].
    Qed.
    Lemma agree P l : inv P -> begin false (files P) l = o l.
    Proof.
      intros (Hb & Hf & _). unfold o, M_FlattenAll.begin.
      rewrite (Iso (files P) s0 false l); [reflexivity|]. intros p Np.
      destruct (Hf p) as [[H _]|(f & l' & cs & x & Hin & E & _)]; [assumption|].
      exfalso. apply (Np l' Hin). eapply begin_placed. exact E.
    Qed.

    Lemma nth_replace (i j : nat) (b c : batch) bs : nth_error bs i = Some c ->
      nth_error (replace_batch i b bs) j = if j =? i then Some b else nth_error bs j.
    Proof.
      intro H. unfold replace_batch. assert (i < length bs) as Hi by (apply nth_error_Some; congruence).
      pose proof (firstn_length i bs) as L. destruct (Nat.eqb_spec j i) as [->|N].
      - rewrite nth_error_app2 by lia. replace (i - length (firstn i bs)) with 0 by lia. reflexivity.
      - destruct (Nat.lt_ge_cases j i).
        + rewrite nth_error_app1 by lia. rewrite nth_firstn. destruct (Nat.ltb_spec j i); [reflexivity|lia].
        + rewrite nth_error_app2 by lia. replace (j - length (firstn i bs)) with (S (j - S i)) by lia. cbn [nth_error].
          rewrite nth_skipn. f_equal. lia.
    Qed.
    Lemma firstn_next (l : list pystr) n x : nth_error l n = Some x -> firstn (S n) l = firstn n l ++ [x].
    Proof.
      revert l. induction n as [|n IH]; intros [|y l] H; try discriminate; cbn in *; [congruence|].
      rewrite <- (IH l H). reflexivity.
    Qed.
    Lemma nth_lt (l : list pystr) n x : nth_error l n = Some x -> n < length l.
    Proof. intro H. apply nth_error_Some. congruence. Qed.

    (** what a step of one batch does to what is opened *)
    Inductive effect (s s' : store) (b b' : batch) : Prop :=
    | eff_none : s' = s -> (forall p pos, opened b' p pos <-> opened b p pos) -> effect s s' b b'
    | eff_open p : s' = put s p [] -> opened b' p 0 ->
        (forall q pos, opened b' q pos <-> opened b q pos \/ (q = p /\ pos = 0)) -> effect s s' b b'
    | eff_write l p w c cs x : s' = put s p (overwrite (content s p) (length (concat w)) c) ->
        In l ls -> o l = Output p (w ++ c :: cs) x ->
        opened b p (length (concat w)) -> opened b' p (length (concat w) + length c) ->
        (forall q pos, opened b' q pos -> opened b q pos \/ q = p /\ pos = length (concat w) + length c) ->
        (forall q pos, opened b q pos -> opened b' q pos \/ (q = p /\ pos = length (concat w))) -> effect s s' b b'.

    Lemma step_inv P i b : inv P -> nth_error (batches P) i = Some b ->
      let r := step (files P) b in
      binv (snd r) /\ b_items (snd r) = b_items b /\ effect (files P) (fst r) b (snd r) /\
      (b_failed b <> None -> b_failed (snd r) = b_failed b).
    Proof.
      intros I Hb. pose proof (proj1 I i b Hb) as B. cbv zeta.
      destruct b as [items n cur rs fl]. unfold M_FlattenAll.step. destruct fl as [x|].
      { destruct cur as [[[[[l p] [pos|]] [|c cs]] [y|]]|]; cbn [fst snd];
          (split; [assumption|]; split; [reflexivity|]; split; [|auto]; apply eff_none; [reflexivity|tauto]). }
      destruct cur as [[[[[l p] [pos|]] cs] x]|].
      - destruct (bi_cur _ B _ _ _ _ _ eq_refl) as (Hn & w & E & Hpos). cbn [b_items b_next] in Hn.
        pose proof (nth_lt _ _ _ Hn) as Hlt. pose proof (bi_items _ B) as Bi. cbn [b_items] in Bi.
        pose proof (bi_fine _ B eq_refl) as Bf. cbn [b_items b_next b_results] in Bf.
        assert (In l ls) as Hl by (apply Bi; eapply nth_error_In; eassumption).
        destruct cs as [|c cs].
        + rewrite app_nil_r in E.
          assert (forall cur' rs' fl', cur' = None -> forall q pos', opened (Batch items (S n) cur' rs' fl') q pos' <->
            opened (Batch items n (Some (l, p, Some pos, [], x)) rs None) q pos') as OE.
          { intros cur' rs' fl' -> q pos'. unfold opened. cbn [b_items b_next b_cur]. rewrite (firstn_next _ _ _ Hn). split.
            - intros [(l' & cs' & x' & Hin & E' & Ep)|(? & ? & ? & Hx)]; [|discriminate].
              apply in_app_iff in Hin as [Hin|[<-|[]]]; [left; eauto 6|]. right. rewrite E in E'. injection E' as <- <- <-. subst pos pos'. eauto.
            - intros [(l' & cs' & x' & Hin & E' & Ep)|(l' & cs' & x' & Hx)].
              + left. exists l', cs', x'. split; [apply in_app_iff; now left|auto].
              + injection Hx as <- <- <- <- <-. left. exists l, w, x. split; [apply in_app_iff; right; now left|]. split; [assumption|]. subst pos. reflexivity. }
          destruct x as [x|]; cbn [fst snd].
          * split; [|split; [reflexivity|split; [apply eff_none; [reflexivity|now apply OE]|cbn [b_failed]; congruence]]].
            constructor; cbn [b_items b_next b_cur b_results b_failed]; [assumption|lia| |discriminate|discriminate].
            intros y Ey. injection Ey as <-. split; [reflexivity|]. exists (firstn n items), l.
            split; [now apply firstn_next|]. split; [assumption|]. right. exists p, w. exact E.
          * split; [|split; [reflexivity|split; [apply eff_none; [reflexivity|now apply OE]|cbn [b_failed]; congruence]]].
            constructor; cbn [b_items b_next b_cur b_results b_failed]; [assumption|lia|discriminate| |discriminate].
            intros _. rewrite (firstn_next _ _ _ Hn). apply Forall2_app; [assumption|]. constructor; [|constructor].
            right. exists p, w. auto.
        + cbn [fst snd]. split; [|split; [reflexivity|split; [|cbn [b_failed]; congruence]]].
          * constructor; cbn [b_items b_next b_cur b_results b_failed]; [assumption|lia|discriminate|auto|].
            intros l' p' pos' cs' x' Ec. injection Ec as <- <- <- <- <-. split; [assumption|]. exists (w ++ [c]).
            rewrite <- app_assoc. split; [exact E|]. rewrite concat_app, app_length. cbn. rewrite app_nil_r. now subst pos.
          * subst pos. apply (eff_write _ _ _ _ l p w c cs x); [reflexivity|assumption|assumption| | | |].
            { right. exists l, (c :: cs), x. reflexivity. } { right. exists l, cs, x. reflexivity. }
            { intros q pos' [H|(l' & cs' & x' & Hx)]; [left; left; exact H|]. cbn [b_cur] in Hx. injection Hx as <- <- <- <- <-. right. auto. }
            { intros q pos' [H|(l' & cs' & x' & Hx)]; [left; left; exact H|]. cbn [b_cur] in Hx. injection Hx as <- <- <- <- <-. right. auto. }
      - destruct (bi_cur _ B _ _ _ _ _ eq_refl) as (Hn & w & E & ->). cbn [b_items b_next] in Hn.
        pose proof (nth_lt _ _ _ Hn) as Hlt. pose proof (bi_items _ B) as Bi. cbn [b_items] in Bi.
        pose proof (bi_fine _ B eq_refl) as Bf. cbn [b_items b_next b_results] in Bf. cbn [fst snd].
        split; [|split; [reflexivity|split; [|cbn [b_failed]; congruence]]].
        + constructor; cbn [b_items b_next b_cur b_results b_failed]; [assumption|lia|discriminate|auto|].
          intros l' p' pos' cs' x' Ec. injection Ec as <- <- <- <- <-. split; [assumption|]. exists []. auto.
        + apply (eff_open _ _ _ _ p); [reflexivity|right; exists l, cs, x; reflexivity|].
          intros q pos. split.
          * intros [H|(l' & cs' & x' & Hx)]; [left; left; exact H|]. cbn [b_cur] in Hx. injection Hx as <- <- <- <- <-. auto.
          * intros [[H|(l' & cs' & x' & Hx)]|[-> ->]]; [left; exact H|discriminate|right; exists l, cs, x; reflexivity].
      - destruct (nth_error items n) as [l|] eqn:Hn.
        2:{ cbn [fst snd]. split; [assumption|]. split; [reflexivity|]. split; [|auto]. apply eff_none; [reflexivity|tauto]. }
        rewrite (agree P l I).
        pose proof (nth_lt _ _ _ Hn) as Hlt. pose proof (bi_items _ B) as Bi. cbn [b_items] in Bi.
        pose proof (bi_fine _ B eq_refl) as Bf. cbn [b_items b_next b_results] in Bf.
        assert (forall rs' fl', (forall p cs x, o l <> Output p cs x) -> forall q pos', opened (Batch items (S n) None rs' fl') q pos' <->
            opened (Batch items n None rs None) q pos') as OE.
        { intros rs' fl' No q pos'. unfold opened. cbn [b_items b_next b_cur]. rewrite (firstn_next _ _ _ Hn). split.
          - intros [(l' & cs' & x' & Hin & E' & Ep)|(? & ? & ? & Hx)]; [|discriminate].
            apply in_app_iff in Hin as [Hin|[<-|[]]]; [left; eauto 6|]. now apply No in E'.
          - intros [(l' & cs' & x' & Hin & E' & Ep)|(l' & cs' & x' & Hx)]; [|discriminate].
            left. exists l', cs', x'. split; [apply in_app_iff; now left|auto]. }
        destruct (o l) as [r|x|p cs x] eqn:E; cbn [fst snd].
        + split; [|split; [reflexivity|split; [apply eff_none; [reflexivity|apply OE; discriminate]|cbn [b_failed]; congruence]]].
          constructor; cbn [b_items b_next b_cur b_results b_failed]; [assumption|lia|discriminate| |discriminate].
          intros _. rewrite (firstn_next _ _ _ Hn). apply Forall2_app; [assumption|]. constructor; [|constructor]. now left.
        + split; [|split; [reflexivity|split; [apply eff_none; [reflexivity|apply OE; discriminate]|cbn [b_failed]; congruence]]].
          constructor; cbn [b_items b_next b_cur b_results b_failed]; [assumption|lia| |discriminate|discriminate].
          intros y Ey. injection Ey as <-. split; [reflexivity|]. exists (firstn n items), l.
          split; [now apply firstn_next|]. split; [assumption|]. now left.
        + split; [|split; [reflexivity|split; [|cbn [b_failed]; congruence]]].
          * constructor; cbn [b_items b_next b_cur b_results b_failed]; [assumption|lia|discriminate|auto|].
            intros l' p' pos' cs' x' Ec. injection Ec as <- <- <- <- <-. split; [assumption|]. exists []. auto.
          * apply eff_none; [reflexivity|]. intros q pos'. unfold opened. cbn [b_items b_next b_cur]. split.
            -- intros [H|(l' & cs' & x' & Hx)]; [now left|discriminate].
            -- intros [H|(l' & cs' & x' & Hx)]; [now left|discriminate].
    Qed.

    Lemma inv_step P i : inv P -> inv (pool_step P i) /\ map b_items (batches (pool_step P i)) = map b_items (batches P).
    Proof.
      intro I. unfold M_FlattenAll.pool_step. destruct (nth_error (batches P) i) as [b|] eqn:Hb; [|auto].
      destruct (step_inv P i b I Hb) as (B' & Ei & Ef & Fl). destruct I as (Hbs & Hf & He).
      destruct (step (files P) b) as [s' b'] eqn:Es. cbn [fst snd] in *.
      assert (forall j, nth_error (replace_batch i b' (batches P)) j = if j =? i then Some b' else nth_error (batches P) j) as NR
        by (intro j; eapply nth_replace; eassumption).
      split; [split; [|split]|]; cbn [files batches first_exn].
      - intros j c Hc. rewrite NR in Hc. destruct (j =? i); [injection Hc as <-; assumption|eauto].
      - (* files *)
        assert (forall p, (exists j c pos, nth_error (batches P) j = Some c /\ opened c p pos) ->
                  exists l cs x, In l ls /\ o l = Output p cs x) as Out.
        { intros p (j & c & pos & Hc & Hop). eapply opened_out; [eapply Hbs|]; eassumption. }
        intro p. destruct Ef as [-> OE|q -> Oq OE|l q w c cs x -> Hl E O1 O2 OB OF].
        + destruct (Hf p) as [[E N]|(f & l & cs & x & Hl & E & Hs & Lf & j & c & pos & Hj & Hop & Hpos & G)].
          * left. split; [assumption|]. intros j c pos Hj. rewrite NR in Hj. destruct (Nat.eqb_spec j i) as [->|Nj]; [|eauto].
            injection Hj as <-. rewrite OE. eauto.
          * right. exists f, l, cs, x. split; [assumption|]. split; [assumption|]. split; [assumption|]. split; [assumption|].
            exists j. rewrite NR. destruct (Nat.eqb_spec j i) as [->|Nj].
            -- exists b', pos. split; [reflexivity|]. rewrite OE. assert (c = b) by congruence. subst c. auto.
            -- exists c, pos. auto.
        + unfold put. destruct (streq_spec p q) as [->|Np].
          * right. assert (binv b') as B2 by assumption. destruct (opened_out b' q 0 B2 Oq) as (l & cs & x & Hl & E).
            exists [], l, cs, x. split; [assumption|]. split; [assumption|]. split; [reflexivity|]. split; [cbn; lia|].
            exists i, b', 0. rewrite NR, Nat.eqb_refl. split; [reflexivity|]. split; [assumption|]. split; [lia|]. intros j Hj. lia.
          * destruct (Hf p) as [[E N]|(f & l & cs & x & Hl & E & Hs & Lf & j & c & pos & Hj & Hop & Hpos & G)].
            -- left. split; [assumption|]. intros j c pos Hj. rewrite NR in Hj. destruct (Nat.eqb_spec j i) as [->|Nj]; [|eauto].
               injection Hj as <-. rewrite OE. intros [X|[X _]]; [eapply N; eassumption|congruence].
            -- right. exists f, l, cs, x. split; [assumption|]. split; [assumption|]. split; [assumption|]. split; [assumption|].
               exists j. rewrite NR. destruct (Nat.eqb_spec j i) as [->|Nj].
               ++ exists b', pos. split; [reflexivity|]. rewrite OE. assert (c = b) by congruence. subst c. auto.
               ++ exists c, pos. auto.
        + unfold put. destruct (streq_spec p q) as [->|Np].
          * destruct (Hf q) as [[E' N]|(f & l' & cs' & x' & Hl' & E' & Hs & Lf & j & d & pos & Hj & Hop & Hpos & G)].
            { exfalso. eapply N; eassumption. }
            right. destruct (out_unique l l' q _ _ _ _ Hl Hl' E E') as [<- <-].
            assert (concat (w ++ c :: cs) = concat w ++ c ++ concat cs) as Ec by (rewrite concat_app; reflexivity).
            unfold content. rewrite Hs.
            destruct (overwrite_good f _ (concat w) c (concat cs) pos Ec Lf G Hpos) as [G1 L1].
            exists (overwrite f (length (concat w)) c), l, (w ++ c :: cs), x.
            split; [assumption|]. split; [assumption|]. split; [reflexivity|]. split; [assumption|].
            exists j. rewrite NR. pose proof (overwrite_length f (length (concat w)) c) as OL.
            destruct (Nat.eqb_spec j i) as [->|Nj].
            -- assert (d = b) by congruence. subst d. destruct (OF q pos Hop) as [X|[_ ->]].
               ++ exists b', pos. split; [reflexivity|]. split; [assumption|]. split; [lia|assumption].
               ++ destruct (overwrite_more f _ (concat w) c (concat cs) Ec Lf G Hpos) as [G2 L2].
                  exists b', (length (concat w) + length c). auto.
            -- exists d, pos. split; [assumption|]. split; [assumption|]. split; [lia|assumption].
          * destruct (Hf p) as [[E' N]|(f & l' & cs' & x' & Hl' & E' & Hs & Lf & j & d & pos & Hj & Hop & Hpos & G)].
            -- left. split; [assumption|]. intros j d pos Hj. rewrite NR in Hj. destruct (Nat.eqb_spec j i) as [->|Nj]; [|eauto].
               injection Hj as <-. intro X. destruct (OB p pos X) as [Y|[Y _]]; [eapply N; eassumption|congruence].
            -- right. exists f, l', cs', x'. split; [assumption|]. split; [assumption|]. split; [assumption|]. split; [assumption|].
               exists j. rewrite NR. destruct (Nat.eqb_spec j i) as [->|Nj].
               ++ assert (d = b) by congruence. subst d. destruct (OF p pos Hop) as [X|[X _]]; [|congruence]. exists b', pos. auto.
               ++ exists d, pos. auto.
      - unfold einv in *. cbn [batches first_exn]. destruct (first_exn P) as [x|].
        + destruct He as (j & c & Hj & Hx). exists j. rewrite NR. destruct (Nat.eqb_spec j i) as [->|Nj]; [|eauto].
          exists b'. split; [reflexivity|]. assert (c = b) by congruence. subst c. rewrite Fl; congruence.
        + destruct (b_failed b') as [x|] eqn:Ex.
          * exists i, b'. rewrite NR, Nat.eqb_refl. auto.
          * intros j c Hj. rewrite NR in Hj. destruct (Nat.eqb_spec j i) as [->|Nj]; [injection Hj as <-; assumption|eauto].
      - unfold replace_batch. rewrite map_app. cbn [map]. rewrite Ei.
        rewrite <- (firstn_skipn i (batches P)) at 3. rewrite map_app. f_equal.
        assert (skipn i (batches P) = b :: skipn (S i) (batches P)) as ->; [|reflexivity].
        clear -Hb. revert Hb. generalize (batches P). induction i as [|i IH]; intros [|y l] H; try discriminate; cbn in *; [congruence|].
        now apply IH.
    Qed.
    Lemma inv_run sched : forall P, inv P -> inv (run P sched) /\ map b_items (batches (run P sched)) = map b_items (batches P).
    Proof.
      induction sched as [|i sched IH]; intros P I; [auto|]. destruct (inv_step P i I) as [I' E].
      destruct (IH _ I') as [I2 E2]. split; [exact I2|]. rewrite <- E. exact E2.
    Qed.
    Lemma inv_start bs : incl (concat bs) ls -> inv (Pool s0 (map new_batch bs) None).
    Proof.
      intro H. assert (forall i b, nth_error (map new_batch bs) i = Some b -> exists it, b = new_batch it /\ incl it ls) as A.
      { intros i b Hb. apply nth_error_In in Hb. apply in_map_iff in Hb as (it & <- & Hit). exists it. split; [reflexivity|].
        intros l Hl. apply H. apply in_concat. eauto. }
      assert (forall i b p pos, nth_error (map new_batch bs) i = Some b -> ~ opened b p pos) as No.
      { intros i b p pos Hb. destruct (A i b Hb) as (it & -> & _). intros [(l & cs & x & [] & _)|(l & cs & x & X)]; discriminate. }
      split; [|split]; cbn [batches files first_exn].
      - intros i b Hb. destruct (A i b Hb) as (it & -> & Hit). constructor; cbn; [assumption|lia|discriminate|constructor|discriminate].
      - intro p. left. split; [reflexivity|]. intros; eapply No; eassumption.
      - unfold einv. cbn. intros i b Hb. destruct (A i b Hb) as (it & -> & _). reflexivity.
    Qed.

    Lemma says_answers l r : says l r -> answers s0 false l r.
    Proof.
      intros [E|(p & cs & E & ->)]; pose proof (begin_spec false s0 l) as B; unfold o in E; rewrite E in B; apply B.
    Qed.
    Lemma raises_breaks l x : raises l x -> breaks s0 false l x.
    Proof.
      intros [E|(p & cs & E)]; pose proof (begin_spec false s0 l) as B; unfold o in E; rewrite E in B; apply B.
    Qed.
    Lemma handled_pre pre rs : Forall2 says pre rs -> forall rest done x, handled s0 false rest done x -> handled s0 false (pre ++ rest) (pre ++ done) x.
    Proof.
      induction 1 as [|l r pre rs H F IH]; intros rest done x Hh; cbn [app]; [assumption|].
      eapply handled_next; [apply says_answers; eassumption|auto].
    Qed.
    Lemma finished_handled b : binv b -> finished b = true ->
      handled s0 false (b_items b) (firstn (b_next b) (b_items b)) (b_failed b) /\
      (forall p pos, opened b p pos -> exists l cs x, In l (firstn (b_next b) (b_items b)) /\ o l = Output p cs x /\ pos = length (concat cs)) /\
      (b_failed b = None -> Forall2 says (b_items b) (b_results b)).
    Proof.
      intros B F. unfold finished in F. destruct (b_failed b) as [x|] eqn:Ex.
      - destruct (bi_failed b B x Ex) as (Ec & pre & l & Ep & F2 & R). split; [|split; [|discriminate]].
        + rewrite <- (firstn_skipn (b_next b) (b_items b)) at 1. rewrite Ep, <- app_assoc.
          eapply handled_pre; [eassumption|]. cbn [app]. apply handled_stop. now apply raises_breaks.
        + intros p pos [H|(? & ? & ? & H)]; [assumption|congruence].
      - destruct (b_cur b) as [cur|] eqn:Ec; [discriminate|]. apply Nat.leb_le in F.
        pose proof (bi_fine b B Ex) as F2. rewrite firstn_all2 in * by assumption. split; [|split; [|auto]].
        + rewrite <- (app_nil_r (b_items b)) at 1. rewrite <- (app_nil_r (b_items b)) at 2. eapply handled_pre; [eassumption|constructor].
        + intros p pos [H|(? & ? & ? & H)]; [|congruence]. rewrite firstn_all2 in H by assumption. exact H.
    Qed.

    Lemma run_result bs sched : incl (concat bs) ls ->
      let P := run (Pool s0 (map new_batch bs) None) sched in
      all_finished P ->
      exists hs, Forall2 (fun b h => handled s0 false b (fst h) (snd h)) bs hs /\
        result_files s0 false (flat_map fst hs) (files P) /\
        match get P with
        | Ok rs => (forall h, In h hs -> snd h = None) /\ Forall2 (answers s0 false) (concat bs) rs
        | Raise x => exists h, In h hs /\ snd h = Some x
        end.
    Proof.
      intros Hin P Fin. destruct (inv_run sched _ (inv_start bs Hin)) as [(Hb & Hf & He) Hit]. fold P in Hb, Hf, He, Hit.
      cbn [batches] in Hit. rewrite map_map in Hit. cbn [new_batch b_items] in Hit. rewrite map_id in Hit.
      pose (h := fun b : batch => (firstn (b_next b) (b_items b), b_failed b)).
      assert (forall b, In b (batches P) -> binv b) as Hb' by (intros b X; apply In_nth_error in X as [i X]; eauto).
      exists (map h (batches P)). split; [|split].
      - rewrite <- Hit. clear Hit Hf He. unfold all_finished in Fin. induction (batches P) as [|b l IH]; [constructor|]. cbn [map].
        constructor.
        + apply finished_handled; [apply Hb'|apply Fin]; now left.
        + apply IH; [intros; apply Fin; now right| |intros; apply Hb'; now right].
          intros i c Hc. apply (Hb (S i)). exact Hc.
      - assert (forall l, In l (flat_map fst (map h (batches P))) <-> exists i b, nth_error (batches P) i = Some b /\ In l (firstn (b_next b) (b_items b))) as FM.
        { intro l. rewrite in_flat_map. split.
          - intros (y & Hy & Hl). apply in_map_iff in Hy as (b & <- & Hb2). apply In_nth_error in Hb2 as [i Hi]. exists i, b. auto.
          - intros (i & b & Hi & Hl). exists (h b). split; [|exact Hl]. apply in_map. eapply nth_error_In; eassumption. }
        assert (forall l, In l (flat_map fst (map h (batches P))) -> In l ls) as Sub.
        { intros l X. apply FM in X as (i & b & Hi & X). apply (bi_items b (Hb i b Hi)). rewrite <- (firstn_skipn (b_next b)). apply in_app_iff. now left. }
        split.
        + intros l p c Hl Y. destruct (yields_begin _ _ _ _ _ Y) as (cs & x & E & ->).
          destruct (Hf p) as [[_ N]|(f & l' & cs' & x' & Hl' & E' & Hs & Lf & j & d & pos & Hj & Hop & Hpos & G)].
          * exfalso. apply FM in Hl as (i & b & Hi & Hl). apply (N i b (length (concat cs)) Hi). left. exists l, cs, x. auto.
          * destruct (out_unique l l' p _ _ _ _ (Sub l Hl) Hl' E E') as [<- <-]. rewrite Hs. f_equal. apply good_all; [assumption|].
            assert (In d (batches P)) as Hd by (eapply nth_error_In; eassumption).
            destruct (finished_handled d (Hb j d Hj) (Fin d Hd)) as (_ & Ho & _).
            destruct (Ho p pos Hop) as (l2 & cs2 & x2 & Hl2 & E2 & ->).
            assert (In l2 ls) as Hl2' by (apply Sub, FM; exists j, d; auto).
            destruct (out_unique l l2 p _ _ _ _ (Sub l Hl) Hl2' E E2) as [<- _]. exact G.
        + intros p Np. destruct (Hf p) as [[E _]|(f & l' & cs' & x' & Hl' & E' & Hs & Lf & j & d & pos & Hj & Hop & Hpos & G)]; [assumption|].
          exfalso. assert (In d (batches P)) as Hd by (eapply nth_error_In; eassumption).
          destruct (finished_handled d (Hb j d Hj) (Fin d Hd)) as (_ & Ho & _).
          destruct (Ho p pos Hop) as (l2 & cs2 & x2 & Hl2 & E2 & ->).
          apply (Np l2 (concat cs2)); [apply FM; exists j, d; auto|].
          pose proof (begin_spec false s0 l2) as B. unfold o in E2. rewrite E2 in B. apply B.
      - unfold get. unfold einv in He. destruct (first_exn P) as [x|].
        + destruct He as (i & b & Hi & Hx). exists (h b). split; [apply in_map; eapply nth_error_In; eassumption|exact Hx].
        + split.
          * intros y Hy. apply in_map_iff in Hy as (b & <- & Hb2). apply In_nth_error in Hb2 as [i Hi]. cbn. eauto.
          * rewrite <- Hit. clear Hit Hf. assert (forall b, In b (batches P) -> b_failed b = None) as He'
              by (intros b X; apply In_nth_error in X as [i X]; eauto). clear He. unfold all_finished in Fin.
            induction (batches P) as [|b l IH]; [constructor|]. cbn [map concat flat_map]. apply Forall2_app.
            -- eapply Forall2_weaken; [|apply finished_handled; [apply Hb'; now left|apply Fin; now left|apply He'; now left]].
               intros; now apply says_answers.
            -- apply IH; [intros; apply Fin; now right| |intros; apply Hb'; now right|intros; apply He'; now right].
               intros i c Hc. apply (Hb (S i)). exact Hc.
    Qed.

  End Run.

  (** ** How the locales are divided *)
  Lemma chunks_concat fuel size l : length l <= fuel -> (l <> [] -> 1 <= size) -> concat (chunks fuel size l) = l.
  Proof.
    revert l. induction fuel as [|fuel IH]; intros l L S1.
    - destruct l; [reflexivity|cbn in L; lia].
    - destruct l as [|x l]; [reflexivity|]. cbn [chunks concat]. rewrite IH.
      + apply firstn_skipn.
      + rewrite skipn_length. specialize (S1 ltac:(discriminate)). cbn [length] in *. lia.
      + intros _. apply S1. discriminate.
  Qed.
  Lemma divide_concat n l : 1 <= n -> concat (divide n l) = l.
  Proof.
    intro Hn. unfold divide. apply chunks_concat; [lia|]. intro Nl. unfold chunk_size.
    destruct (Nat.eqb_spec (length l mod (n * 4)) 0) as [E|E]; [|apply Nat.le_add_l].
    assert (length l <> 0) as L by (destruct l; [congruence|cbn; lia]).
    pose proof (Nat.div_mod (length l) (n * 4) ltac:(lia)) as DM.
    rewrite E in DM. destruct (length l / (n * 4)); [|cbn; apply le_n_S, Nat.le_0_l]. rewrite Nat.mul_0_r in DM. cbn in DM. congruence.
  Qed.

  Notation start := (fun s n ls => start s n ls).

  (** ** C82: whatever the order of the steps, the files and the answers are the same *)
  Theorem C82_schedule : forall ls s n sched, isolated ls -> Forall plain ls -> 1 <= n ->
    let P := run (start s n ls) sched in
    all_finished P ->
    concat (divide n ls) = ls /\
    exists hs, Forall2 (fun b h => handled s false b (fst h) (snd h)) (divide n ls) hs /\
      result_files s false (flat_map fst hs) (files P) /\
      match get P with
      | Ok rs => (forall h, In h hs -> snd h = None) /\ Forall2 (answers s false) ls rs
      | Raise x => exists h, In h hs /\ snd h = Some x
      end.
  Proof.
    intros ls s n sched Iso Pl Hn P Fin. pose proof (divide_concat n ls Hn) as E. split; [assumption|].
    destruct (run_result s ls Iso Pl (divide n ls) sched) as (hs & H1 & H2 & H3); [rewrite E; apply incl_refl|exact Fin|].
    rewrite E in H3. exists hs. auto.
  Qed.

  (** the specification leaves no choice *)
  Lemma marked_fun d a b : marked d a -> marked d b -> a = b.
  Proof. intros H H'. apply identify_ok in H, H'. congruence. Qed.
  Lemma yields_fun s c l p q a b : yields s c l p a -> yields s c l q b -> p = q /\ a = b.
  Proof.
    intros H H'. destruct (yields_begin _ _ _ _ _ H) as (cs & x & E & ->), (yields_begin _ _ _ _ _ H') as (cs' & x' & E' & ->).
    rewrite E in E'. injection E' as <- <- <-. auto.
  Qed.
  Lemma answers_begin s l r single : answers s single l r -> begin single s l = Verdict r \/ (exists p cs, begin single s l = Output p cs None /\ r = (true, l, None)).
  Proof.
    intros [(-> & x & E & ->)|[(E & ->)|(p & c & Y & N & ->)]].
    - left. unfold M_FlattenAll.begin. now rewrite E.
    - left. unfold M_FlattenAll.begin. now rewrite E.
    - right. destruct (yields_begin _ _ _ _ _ Y) as (cs & x & E & ->). exists p, cs. split; [|reflexivity].
      pose proof (begin_spec single s l) as B. rewrite E in B. destruct x as [x|]; [|assumption]. destruct B as [_ B]. now apply N in B.
  Qed.
  Lemma answers_fun s l r r' single : answers s single l r -> answers s single l r' -> r = r'.
  Proof.
    intros A A'. apply answers_begin in A, A'. destruct A as [E|(p & cs & E & ->)], A' as [E'|(p' & cs' & E' & ->)]; congruence.
  Qed.
  Lemma breaks_begin s l x single : breaks s single l x -> begin single s l = Crash x \/ exists p cs, begin single s l = Output p cs (Some x).
  Proof.
    intros [[-> E]|(d & E & [U|(d' & M & [U|(p & cs & P & W)])])].
    - left. unfold M_FlattenAll.begin. now rewrite E.
    - left. unfold M_FlattenAll.begin. rewrite E. assert (identify d = Raise x) as ->; [|reflexivity].
      unfold M_FlattenAll.identify, dogit. destruct U as [(r & Er & N & A)|(NR & G & U)].
      + rewrite Er. destruct r; [congruence|exact A].
      + assert ((do r <- (do log <- git_log d; match split_on 10%N log with [rev; _] => Ok rev | _ => Raise ValueError end); add_revid r d) = Raise x) as Y.
        { destruct U as [U|[(log & U & -> & N)|(a & b & U & Na & Nb & A)]]; rewrite U; cbn [bind]; [reflexivity| |].
          - destruct (split_on 10%N log) as [|a [|b [|]]] eqn:Es; try reflexivity. apply split_two in Es as (E' & Na & Nb). now apply N in E'.
          - rewrite (proj2 (split_two _ _ _) (conj eq_refl (conj Na Nb))). exact A. }
        destruct NR as [->| ->]; rewrite G; exact Y.
    - left. unfold M_FlattenAll.begin. rewrite E. apply identify_ok in M. rewrite M.
      assert (out_path l = Raise x) as ->; [|reflexivity]. unfold M_FlattenAll.out_path.
      destruct U as [(A & -> & ->)|([A|A] & O & ->)].
      + now rewrite A. + now rewrite A, O. + rewrite O. destruct alphadir; [destruct l; [congruence|reflexivity]|reflexivity].
    - right. exists p, cs. unfold M_FlattenAll.begin. rewrite E. apply identify_ok in M. rewrite M. apply out_path_ok in P. rewrite P, W. reflexivity.
  Qed.
  Lemma handled_fun s single ls : forall d d' x x', handled s single ls d x -> handled s single ls d' x' -> d = d' /\ x = x'.
  Proof.
    assert (forall l r x, answers s single l r -> breaks s single l x -> False) as NB.
    { intros l r x A B. apply answers_begin in A. apply breaks_begin in B.
      destruct A as [E|(p & cs & E & ->)], B as [E'|(p' & cs' & E')]; congruence. }
    assert (forall l x y, breaks s single l x -> breaks s single l y -> x = y) as BB.
    { intros l x y B B'. apply breaks_begin in B, B'. destruct B as [E|(p & cs & E)], B' as [E'|(p' & cs' & E')]; congruence. }
    induction ls as [|l ls IH]; intros d d' x x' H H'; inversion H as [|l0 ls0 d0 x0 r A H0|l0 ls0 x0 B]; subst;
      inversion H' as [|l1 ls1 d1 x1 r1 A1 H1|l1 ls1 x1 B1]; subst.
    - auto.
    - destruct (IH _ _ _ _ H0 H1) as [-> ->]. auto.
    - exfalso. eapply NB; eassumption.
    - exfalso. eapply NB; eassumption.
    - split; [reflexivity|]. f_equal. eapply BB; eassumption.
  Qed.
  Lemma result_files_fun s single done s1 s2 : (forall l, In l done -> plain l) ->
    result_files s single done s1 -> result_files s single done s2 -> forall p, s1 p = s2 p.
  Proof.
    intros Pl [A1 B1] [A2 B2] p.
    assert ((exists l c, In l done /\ yields s single l p c) \/ (forall l c, In l done -> ~ yields s single l p c)) as [(l & c & Hl & Y)|N].
    { clear -done. induction done as [|l done IH]; [right; intros ? ? []|].
      destruct IH as [(k & c & Hk & Y)|N]; [left; exists k, c; split; [now right|assumption]|].
      destruct (begin single s l) as [r|x|q cs x] eqn:E; pose proof (begin_spec single s l) as B; rewrite E in B.
      - right. intros k c [<-|Hk]; [apply B|now apply N].
      - right. intros k c [<-|Hk]; [apply B|now apply N].
      - destruct (streq_spec p q) as [->|Nq]; [left; exists l, (concat cs); split; [now left|apply B]|].
        right. intros k c [<-|Hk]; [|now apply N]. intro Y. destruct (yields_begin _ _ _ _ _ Y) as (cs' & x' & E' & _). congruence. }
    - rewrite (A1 l p c Hl Y), (A2 l p c Hl Y). reflexivity.
    - rewrite (B1 p N), (B2 p N). reflexivity.
  Qed.
  Theorem C82_same : forall ls s n sched sched', isolated ls -> Forall plain ls -> 1 <= n ->
    let P := run (start s n ls) sched in
    let P' := run (start s n ls) sched' in
    all_finished P -> all_finished P' ->
    (forall p, files P p = files P' p) /\ (forall rs, get P = Ok rs <-> get P' = Ok rs).
  Proof.
    intros ls s n sched sched' Iso Pl Hn P P' F F'.
    destruct (C82_schedule ls s n sched Iso Pl Hn F) as (E & hs & H1 & H2 & H3).
    destruct (C82_schedule ls s n sched' Iso Pl Hn F') as (_ & hs' & H1' & H2' & H3').
    fold P in H2, H3. fold P' in H2', H3'.
    assert (hs = hs') as <-.
    { clear -H1 H1'. revert hs' H1'. induction H1 as [|b h bs hs Hb F IH]; intros hs' H1'; inversion H1' as [|b' h' bs' hs2 Hb' F']; subst; [reflexivity|].
      f_equal; [|auto]. destruct (handled_fun _ _ _ _ _ _ _ Hb Hb') as [E1 E2]. destruct h, h'; cbn in *; congruence. }
    assert (forall l, In l (flat_map fst hs) -> In l ls) as Sub.
    { rewrite <- E. clear -H1. induction H1 as [|b h bs hs Hb F IH]; intros l Hl; [destruct Hl|]. cbn [flat_map concat] in *.
      apply in_app_iff in Hl. apply in_app_iff. destruct Hl as [Hl|Hl]; [left|right; auto].
      clear -Hb Hl. revert Hl. generalize (fst h), (snd h), Hb. clear. intros d x H. induction H as [|k ks d x r A H IH|k ks x B]; intro Hl.
      - destruct Hl. - destruct Hl as [<-|Hl]; [now left|right; auto]. - destruct Hl as [<-|[]]. now left. }
    rewrite Forall_forall in Pl. split.
    - eapply result_files_fun; [|eassumption|eassumption]. intros l Hl. apply Pl. auto.
    - assert (forall rs rs', Forall2 (answers s false) ls rs -> Forall2 (answers s false) ls rs' -> rs = rs') as FF.
      { clear. intros rs rs' A. revert rs'. induction A as [|l r ls rs H A IH]; intros rs' A'; inversion A' as [|l' r' ls' rs2 H' A2]; subst; [reflexivity|].
        f_equal; [eapply answers_fun; eassumption|auto]. }
      destruct (get P) as [rs|x], (get P') as [rs'|x'].
      + destruct H3 as [_ H3], H3' as [_ H3']. rewrite (FF _ _ H3 H3'). tauto.
      + destruct H3 as [H3 _], H3' as (h & Hh & X). rewrite (H3 h Hh) in X. discriminate.
      + destruct H3' as [H3' _], H3 as (h & Hh & X). rewrite (H3' h Hh) in X. discriminate.
      + split; discriminate.
  Qed.

  (** ** C82: without exceptions the number of processes does not matter either, and the report lists,
      in order, the locales without a result *)
  Theorem C82_report : forall ls s n sched, isolated ls -> Forall plain ls -> 1 <= n ->
    let P := run (start s n ls) sched in
    all_finished P -> (forall l x, In l ls -> ~ breaks s false l x) ->
    result_files s false ls (files P) /\
    exists rs, get P = Ok rs /\
      reported rs = flat_map (fun l => match flatten s false l with
                                       | Raise x => [(l, Some x)]
                                       | Ok None => [(l, None)]
                                       | Ok (Some _) => []
                                       end) ls.
  Proof.
    intros ls s n sched Iso Pl Hn P F NB.
    destruct (C82_schedule ls s n sched Iso Pl Hn F) as (E & hs & H1 & H2 & H3). fold P in H2, H3.
    assert (flat_map fst hs = ls /\ forall h, In h hs -> snd h = None) as [E1 E2].
    { rewrite <- E. rewrite <- E in NB. clear -H1 NB. induction H1 as [|b h bs hs Hb F IH]; [split; [reflexivity|intros ? []]|].
      cbn [flat_map concat] in *. destruct IH as [IH1 IH2]; [intros; apply NB; apply in_app_iff; now right|].
      assert (fst h = b /\ snd h = None) as [-> X].
      { assert (forall l x, In l b -> ~ breaks s false l x) as NB' by (intros; apply NB; apply in_app_iff; now left).
        clear -Hb NB'. revert Hb. generalize (fst h), (snd h). intros d x H. induction H as [|k ks d x r A H IH|k ks x B].
        - auto. - destruct IH as [-> ->]; [intros; apply NB'; now right|auto]. - exfalso. eapply NB'; [now left|eassumption]. }
      split; [now rewrite IH1|]. intros h' [<-|Hh]; auto. }
    split; [now rewrite <- E1 at 1|]. destruct (get P) as [rs|x].
    2:{ destruct H3 as (h & Hh & X). rewrite (E2 h Hh) in X. discriminate. }
    exists rs. split; [reflexivity|]. destruct H3 as [_ H3]. clear -H3. unfold reported.
    induction H3 as [|l r ls rs A H IH]; [reflexivity|]. cbn [flat_map filter].
    destruct A as [(_ & x & Ef & ->)|[(Ef & ->)|(p & c & Y & N & ->)]]; cbn [fst snd negb].
    - rewrite Ef. cbn [map fst snd app]. now rewrite IH.
    - rewrite Ef. cbn [map fst snd app]. now rewrite IH.
    - destruct Y as (d & d' & cs & x & Ef & _). rewrite Ef. cbn [app]. exact IH.
  Qed.

  (** ** C82: the workers can always finish *)
  Fixpoint steps (k : nat) (s : store) (b : batch) : store * batch :=
    match k with O => (s, b) | S k => let r := step s b in steps k (fst r) (snd r) end.
  Lemma steps_add k k' s b : steps (k + k') s b = (let r := steps k s b in steps k' (fst r) (snd r)).
  Proof. revert s b. induction k as [|k IH]; intros s b; [reflexivity|]. cbn [Nat.add steps]. now rewrite IH. Qed.
  Lemma finish_pieces cs : forall s items n l p pos x rs, exists k,
    let b := snd (steps k s (Batch items n (Some (l, p, Some pos, cs, x)) rs None)) in
    b_items b = items /\ (b_failed b <> None \/ (b_cur b = None /\ b_failed b = None /\ b_next b = S n)).
  Proof.
    induction cs as [|c cs IH]; intros s items n l p pos x rs.
    - exists 1. cbn. destruct x; cbn; [split; [reflexivity|left; discriminate]|auto].
    - destruct (IH (put s p (overwrite (content s p) pos c)) items n l p (pos + length c) x rs) as [k Hk]. exists (S k). exact Hk.
  Qed.
  Lemma finish_one r : forall s items n rs, length items - n <= r -> exists k,
    finished (snd (steps k s (Batch items n None rs None))) = true.
  Proof.
    induction r as [|r IH]; intros s items n rs Hr.
    - exists 0. cbn. apply Nat.leb_le. lia.
    - destruct (nth_error items n) as [l|] eqn:En.
      2:{ exists 0. cbn. apply Nat.leb_le. now apply nth_error_None. }
      pose proof (nth_lt _ _ _ En) as Hlt.
      destruct (begin false s l) as [v|x|p cs x] eqn:Eb.
      + destruct (IH s items (S n) (rs ++ [v]) ltac:(lia)) as [k Hk]. exists (S k). cbn [steps M_FlattenAll.step]. rewrite En, Eb. exact Hk.
      + exists 1. cbn [steps M_FlattenAll.step]. rewrite En, Eb. reflexivity.
      + destruct (finish_pieces cs (put s p []) items n l p 0 x rs) as [k1 [E1 H1]].
        remember (steps k1 (put s p []) (Batch items n (Some (l, p, Some 0, cs, x)) rs None)) as r1 eqn:Er1.
        assert (steps (2 + k1) s (Batch items n None rs None) = r1) as E2.
        { cbn [Nat.add steps]. cbn [M_FlattenAll.step]. rewrite En, Eb. cbn [fst snd M_FlattenAll.step]. now symmetry. }
        destruct r1 as [s1 [it1 n1 cur1 rs1 fl1]]. cbn [snd b_items b_failed b_cur b_next] in *. subst it1.
        destruct fl1 as [y|].
        * exists (2 + k1). rewrite E2. reflexivity.
        * destruct H1 as [H1|(-> & _ & ->)]; [congruence|]. destruct (IH s1 items (S n) rs1 ltac:(lia)) as [k Hk].
          exists ((2 + k1) + k). rewrite steps_add, E2. exact Hk.
  Qed.
  Lemma finish_any s b : exists k, finished (snd (steps k s b)) = true.
  Proof.
    destruct b as [items n cur rs [x|]]; [exists 0; reflexivity|]. destruct cur as [[[[[l p] [pos|]] cs] x]|].
    - destruct (finish_pieces cs s items n l p pos x rs) as [k1 [E1 H1]].
      destruct (steps k1 s (Batch items n (Some (l, p, Some pos, cs, x)) rs None)) as [s1 [it1 n1 cur1 rs1 fl1]] eqn:E2.
      cbn [snd b_items b_failed b_cur b_next] in *. subst it1. destruct fl1 as [y|]; [exists k1; now rewrite E2|].
      destruct H1 as [H1|(-> & _ & ->)]; [congruence|]. destruct (finish_one _ s1 items (S n) rs1 (le_n _)) as [k Hk].
      exists (k1 + k). rewrite steps_add, E2. exact Hk.
    - destruct (finish_pieces cs (put s p []) items n l p 0 x rs) as [k1 [E1 H1]].
      destruct (steps k1 (put s p []) (Batch items n (Some (l, p, Some 0, cs, x)) rs None)) as [s1 [it1 n1 cur1 rs1 fl1]] eqn:E2.
      cbn [snd b_items b_failed b_cur b_next] in *. subst it1. destruct fl1 as [y|]; [exists (S k1); cbn [steps M_FlattenAll.step fst snd]; now rewrite E2|].
      destruct H1 as [H1|(-> & _ & ->)]; [congruence|]. destruct (finish_one _ s1 items (S n) rs1 (le_n _)) as [k Hk].
      exists (S k1 + k). cbn [Nat.add steps M_FlattenAll.step fst snd]. rewrite steps_add, E2. exact Hk.
    - apply (finish_one _ s items n rs (le_n _)).
  Qed.
  Lemma run_one k : forall P i b, nth_error (batches P) i = Some b ->
    files (run P (repeat i k)) = fst (steps k (files P) b) /\
    forall j, nth_error (batches (run P (repeat i k))) j = if j =? i then Some (snd (steps k (files P) b)) else nth_error (batches P) j.
  Proof.
    induction k as [|k IH]; intros P i b Hb.
    - split; [reflexivity|]. intro j. cbn. destruct (Nat.eqb_spec j i) as [->|]; [assumption|reflexivity].
    - assert (pool_step P i = Pool (fst (step (files P) b)) (replace_batch i (snd (step (files P) b)) (batches P))
        (match first_exn P, b_failed (snd (step (files P) b)) with None, Some x => Some x | e, _ => e end)) as E
        by (unfold M_FlattenAll.pool_step; rewrite Hb; reflexivity).
      change (run P (repeat i (S k))) with (run (pool_step P i) (repeat i k)). rewrite E.
      destruct (IH (Pool (fst (step (files P) b)) (replace_batch i (snd (step (files P) b)) (batches P))
        (match first_exn P, b_failed (snd (step (files P) b)) with None, Some x => Some x | e, _ => e end)) i (snd (step (files P) b))) as [F1 F2].
      { cbn [batches]. rewrite (nth_replace _ _ _ _ _ Hb), Nat.eqb_refl. reflexivity. }
      cbn [files batches] in *. split; [exact F1|]. intro j. rewrite F2, (nth_replace _ _ _ _ _ Hb).
      destruct (Nat.eqb_spec j i); reflexivity.
  Qed.
  Theorem C82_finishes : forall P, exists sched, all_finished (run P sched).
  Proof.
    intro P. assert (forall m, m <= length (batches P) -> exists sched, length (batches (run P sched)) = length (batches P) /\
      forall j b, j < m -> nth_error (batches (run P sched)) j = Some b -> finished b = true) as A.
    { induction m as [|m IH]; intro Hm; [exists []; split; [reflexivity|intros; lia]|].
      destruct IH as (sched & L & H); [lia|]. set (P1 := run P sched) in *.
      destruct (nth_error (batches P1) m) as [b|] eqn:Eb; [|apply nth_error_None in Eb; lia].
      destruct (finish_any (files P1) b) as [k Hk]. destruct (run_one k P1 m b Eb) as [_ R].
      exists (sched ++ repeat m k). assert (run P (sched ++ repeat m k) = run P1 (repeat m k)) as E by apply fold_left_app. rewrite E. split.
      - rewrite <- L. apply Nat.le_antisymm.
        + destruct (Nat.le_gt_cases (length (batches (run P1 (repeat m k)))) (length (batches P1))) as [X|X]; [assumption|].
          exfalso. assert (nth_error (batches (run P1 (repeat m k))) (length (batches P1)) <> None) as Y by now apply nth_error_Some.
          rewrite R in Y. destruct (Nat.eqb_spec (length (batches P1)) m); [lia|]. apply Y. now apply nth_error_None.
        + destruct (Nat.le_gt_cases (length (batches P1)) (length (batches (run P1 (repeat m k))))) as [X|X]; [assumption|].
          exfalso. assert (nth_error (batches P1) (length (batches (run P1 (repeat m k)))) <> None) as Y by now apply nth_error_Some.
          pose proof (proj2 (nth_error_None (batches (run P1 (repeat m k))) _) (le_n _)) as Z. rewrite R in Z.
          destruct (length (batches (run P1 (repeat m k))) =? m); [discriminate|congruence].
      - intros j c Hj Hc. rewrite R in Hc. destruct (Nat.eqb_spec j m) as [->|N]; [injection Hc as <-; assumption|].
        apply (H j); [lia|assumption]. }
    destruct (A _ (le_n _)) as (sched & L & H). exists sched. intros b Hb. apply In_nth_error in Hb as [j Hj].
    apply (H j); [|assumption]. rewrite <- L. apply nth_error_Some. congruence.
  Qed.

  (** ** C82: one process *)
  Lemma single_gen all s ls : isolated all -> Forall plain all -> forall pre s1 rs s' r, incl pre all -> incl ls all ->
    result_files s true pre s1 -> single_run s1 ls rs = (s', r) ->
    exists done, handled s true ls done (match r with Raise x => Some x | Ok _ => None end) /\
      result_files s true (pre ++ done) s' /\
      (forall rs', r = Ok rs' -> exists rs2, rs' = rs ++ rs2 /\ Forall2 (answers s true) ls rs2).
  Proof.
    intros Iso Pl. rewrite Forall_forall in Pl. induction ls as [|l ls IH]; intros pre s1 rs s' r Ip Il RF H.
    - cbn in H. injection H as <- <-. exists []. split; [constructor|]. rewrite app_nil_r. split; [assumption|].
      intros rs' E. injection E as <-. exists []. rewrite app_nil_r. split; [reflexivity|constructor].
    - cbn [M_FlattenAll.single_run] in H.
      assert (begin true s1 l = begin true s l) as Eb.
      { unfold M_FlattenAll.begin. rewrite (Iso s1 s true l); [reflexivity|]. intros p Np. apply (proj2 RF).
        intros k c Hk (d & d' & cs & x & _ & _ & P & _). apply (Np k); [now apply Ip|assumption]. }
      rewrite Eb in H. clear Eb. pose proof (begin_spec true s l) as B.
      assert (In l all) as Hl by (apply Il; now left). assert (incl ls all) as Il' by (intros k Hk; apply Il; now right).
      assert (forall s2, (forall p c, ~ yields s true l p c) -> result_files s true pre s2 -> result_files s true (pre ++ [l]) s2) as Same.
      { intros s2 NY [R1 R2]. split.
        - intros k p c Hk Y. apply in_app_iff in Hk as [Hk|[<-|[]]]; [eauto|]. now apply NY in Y.
        - intros p Np. apply R2. intros k c Hk. apply Np. apply in_app_iff. now left. }
      assert (incl (pre ++ [l]) all) as Ip' by (intros k Hk; apply in_app_iff in Hk as [Hk|[<-|[]]]; auto).
      destruct (begin true s l) as [v|x|p cs x] eqn:E.
      + destruct B as [A NY]. destruct (IH (pre ++ [l]) s1 (rs ++ [v]) s' r Ip' Il' (Same s1 NY RF) H) as (done & Hh & R & Hr).
        exists (l :: done). split; [eapply handled_next; eassumption|]. rewrite <- app_assoc in R. split; [exact R|].
        intros rs' Ers. destruct (Hr rs' Ers) as (rs2 & -> & F2). exists (v :: rs2). rewrite <- app_assoc. split; [reflexivity|]. now constructor.
      + injection H as <- <-. destruct B as [A NY]. exists [l]. split; [now apply handled_stop|]. split; [auto|]. discriminate.
      + destruct B as [Y Bx]. assert (result_files s true (pre ++ [l]) (put s1 p (concat cs))) as RF'.
        { split.
          - intros k q c Hk Yk. unfold put. destruct (streq_spec q p) as [->|Nq].
            + destruct (yields_begin _ _ _ _ _ Yk) as (cs' & x' & E' & _).
              assert (k = l) as ->.
              { apply (placed_inj k l p); [apply Pl, Ip', Hk|now apply Pl|eapply begin_placed; exact E'|eapply begin_placed; exact E]. }
              destruct (yields_fun _ _ _ _ _ _ _ Y Yk) as [_ ->]. reflexivity.
            + apply in_app_iff in Hk as [Hk|[<-|[]]]; [now apply (proj1 RF k)|].
              destruct (yields_fun _ _ _ _ _ _ _ Y Yk) as [X _]. congruence.
          - intros q Nq. unfold put. destruct (streq_spec q p) as [->|N].
            + exfalso. apply (Nq l (concat cs)); [apply in_app_iff; right; now left|assumption].
            + apply (proj2 RF). intros k c Hk. apply Nq. apply in_app_iff. now left. }
        destruct x as [x|].
        * injection H as <- <-. exists [l]. split; [now apply handled_stop|]. split; [assumption|discriminate].
        * destruct (IH (pre ++ [l]) _ (rs ++ [(true, l, None)]) s' r Ip' Il' RF' H) as (done & Hh & R & Hr).
          exists (l :: done). split; [eapply handled_next; eassumption|]. rewrite <- app_assoc in R. split; [exact R|].
          intros rs' Ers. destruct (Hr rs' Ers) as (rs2 & -> & F2). exists ((true, l, None) :: rs2). rewrite <- app_assoc. split; [reflexivity|]. now constructor.
  Qed.
  Theorem C82_single : forall ls s s' r, isolated ls -> Forall plain ls -> single_run s ls [] = (s', r) ->
    exists done, handled s true ls done (match r with Raise x => Some x | Ok _ => None end) /\
      result_files s true done s' /\
      (forall rs, r = Ok rs -> Forall2 (answers s true) ls rs).
  Proof.
    intros ls s s' r Iso Pl H.
    destruct (single_gen ls s ls Iso Pl [] s [] s' r (incl_nil_l _) (incl_refl _)) as (done & Hh & R & Hr); [|assumption|].
    { split; [intros ? ? ? []|reflexivity]. }
    exists done. split; [assumption|]. split; [exact R|]. intros rs E. destruct (Hr rs E) as (rs2 & -> & F). exact F.
  Qed.

  (** ** C82: one process gives the same as many, when no locale raises and flattening collations makes no difference *)
  Theorem C82_single_same : forall ls s n sched, isolated ls -> Forall plain ls -> 1 <= n ->
    (forall l x, In l ls -> ~ breaks s false l x /\ ~ breaks s true l x) ->
    (forall l, In l ls -> flatten s true l = flatten s false l) ->
    let P := run (start s n ls) sched in
    all_finished P ->
    (forall p, fst (single_run s ls []) p = files P p) /\ snd (single_run s ls []) = get P.
  Proof.
    intros ls s n sched Iso Pl Hn NB Same P F.
    destruct (C82_schedule ls s n sched Iso Pl Hn F) as (E & hs & H1 & _ & H3). fold P in H3.
    destruct (C82_report ls s n sched Iso Pl Hn F) as (H2 & rs & Er & _); [intros; now apply NB|]. fold P in H2, Er.
    rewrite Er in H3. destruct H3 as [_ H3].
    destruct (single_run s ls []) as [s' r] eqn:Es. destruct (C82_single ls s s' r Iso Pl Es) as (done & Hh & R & Hr). cbn [fst snd].
    assert (done = ls /\ exists rs', r = Ok rs') as [-> [rs' ->]].
    { assert (forall l x, In l ls -> ~ breaks s true l x) as NB' by (intros; now apply NB). clear -Hh NB'.
      assert (forall ls d x, handled s true ls d x -> (forall l x, In l ls -> ~ breaks s true l x) -> d = ls /\ x = None) as A.
      { clear. intros ls d x H. induction H as [|k ks d x r A H IH|k ks x B]; intro N; [auto| |].
        - destruct IH as [-> ->]; [intros; apply N; now right|auto].
        - exfalso. eapply N; [now left|eassumption]. }
      destruct (A _ _ _ Hh NB') as [-> E]. split; [reflexivity|]. destruct r as [rs'|x]; [eauto|discriminate]. }
    assert (forall l p c, In l ls -> (yields s true l p c <-> yields s false l p c)) as Ye.
    { intros l p c Hl. unfold yields. now rewrite (Same l Hl). }
    split.
    - assert (result_files s false ls s') as R'.
      { destruct R as [R1 R2]. split.
        - intros l p c Hl Y. apply (R1 l p c Hl). now apply Ye.
        - intros p N. apply R2. intros l c Hl Y. apply (N l c Hl). now apply Ye. }
      rewrite Forall_forall in Pl. eapply result_files_fun; [|exact R'|exact H2]. auto.
    - rewrite Er. f_equal. specialize (Hr rs' eq_refl). clear -Hr H3 Same NB Ye.
      assert (forall l r, In l ls -> answers s true l r -> answers s false l r) as An.
      { intros l r Hl [(X & _)|[(X & ->)|(p & c & Y & N & ->)]]; [discriminate| |].
        - right. left. split; [|reflexivity]. now rewrite <- (Same l Hl).
        - right. right. exists p, c. split; [now apply Ye|]. split; [|reflexivity]. intros x. now apply (NB l x Hl). }
      clear -Hr H3 An. revert rs H3. induction Hr as [|l r ls rs' H Hr IH]; intros rs H3; inversion H3 as [|l' r' ls' rs2 H' A2]; subst; [reflexivity|].
      f_equal; [|apply IH; [intros; apply An; [now right|assumption]|assumption]].
      eapply answers_fun; [apply An; [now left|exact H]|exact H'].
  Qed.
End Spec.

(** ** C82: the locales *)
Lemma xml_name_spec l n : xml_name l = Some n <-> l = n ++ lit ".xml".
Proof.
  unfold xml_name, dotxml. destruct (Nat.leb_spec 4 (length l)) as [L|L]; cbn [andb].
  - destruct (streq_spec (skipn (length l - 4) l) (lit ".xml")) as [E|E].
    + split.
      * intro H. injection H as <-. rewrite <- E. symmetry. apply firstn_skipn.
      * intros ->. f_equal. rewrite app_length. change (length (lit ".xml")) with 4. rewrite Nat.add_sub, firstn_app, Nat.sub_diag, firstn_all, firstn_O. apply app_nil_r.
    + split; [discriminate|]. intros ->. exfalso. apply E. rewrite app_length. change (length (lit ".xml")) with 4.
      rewrite Nat.add_sub, skipn_app, Nat.sub_diag, skipn_all. reflexivity.
  - split; [discriminate|]. intros ->. rewrite app_length in L. change (length (lit ".xml")) with 4 in L. lia.
Qed.
Lemma add_set_in s l k : In k (add_set s l) <-> In k s \/ k = l.
Proof.
  unfold add_set. destruct (existsb (streq l) s) eqn:E.
  - apply existsb_exists in E as (x & Hx & E). apply streq_true in E. subst x. split; [auto|]. intros [H| ->]; assumption.
  - rewrite in_app_iff. cbn. intuition.
Qed.
Lemma add_set_nodup s l : NoDup s -> NoDup (add_set s l).
Proof.
  intro H. unfold add_set. destruct (existsb (streq l) s) eqn:E; [assumption|].
  apply (Permutation_NoDup (Permutation_cons_append s l)). constructor; [|assumption]. intro X.
  assert (existsb (streq l) s = true) by (apply existsb_exists; exists l; split; [assumption|apply streq_refl]). congruence.
Qed.
(** the entry [e] of an input directory is or holds the file of locale [l] *)
Definition holds (e : pystr * option (list pystr)) (l : pystr) : Prop :=
  fst e = l ++ lit ".xml" \/
  ((forall k, fst e <> k ++ lit ".xml") /\ exists ts, snd e = Some ts /\ In (l ++ lit ".xml") ts).
Lemma add_entry_spec s e : NoDup s -> NoDup (add_entry s e) /\ forall k, In k (add_entry s e) <-> In k s \/ holds e k.
Proof.
  intro ND. unfold add_entry, holds. destruct (xml_name (fst e)) as [n|] eqn:En.
  - apply xml_name_spec in En. split; [now apply add_set_nodup|]. intro k. rewrite add_set_in. split.
    + intros [H| ->]; auto.
    + intros [H|[H|[H _]]]; [auto| |now apply H in En]. right. rewrite En in H. apply app_inv_tail in H. congruence.
  - assert (forall k, fst e <> k ++ lit ".xml") as N by (intros k X; apply xml_name_spec in X; congruence).
    destruct (snd e) as [ts|].
    + assert (forall ts s, NoDup s -> let s' := fold_left (fun s t => match xml_name t with Some l => add_set s l | None => s end) ts s in
        NoDup s' /\ forall k, In k s' <-> In k s \/ In (k ++ lit ".xml") ts) as F.
      { clear. induction ts as [|t ts IH]; intros s ND; cbn [fold_left]; [split; [assumption|cbn; tauto]|].
        destruct (xml_name t) as [n|] eqn:En.
        - apply xml_name_spec in En. destruct (IH _ (add_set_nodup s n ND)) as [H1 H2]. split; [assumption|]. intro k. rewrite H2, add_set_in. cbn [In]. split.
          + intros [[H| ->]|H]; auto.
          + intros [H|[H|H]]; auto. left. right. rewrite En in H. apply app_inv_tail in H. congruence.
        - destruct (IH s ND) as [H1 H2]. split; [assumption|]. intro k. rewrite H2. cbn [In]. split; [tauto|].
          intros [H|[H|H]]; auto. symmetry in H. assert (xml_name t = Some k) by now apply xml_name_spec. congruence. }
      destruct (F ts s ND) as [F1 F2]. split; [exact F1|]. intro k. rewrite F2. split.
      * intros [H|H]; [auto|]. right. right. split; [assumption|]. eauto.
      * intros [H|[H|(_ & ts' & E & H)]]; [auto|now apply N in H|]. injection E as <-. auto.
    + split; [assumption|]. intro k. split; [auto|]. intros [H|[H|(_ & ts' & E & _)]]; [assumption|now apply N in H|discriminate].
Qed.
Theorem C82_locales : forall indirs,
  StronglySorted (fun a b => strcmp a b = Lt) (all_locales indirs) /\
  forall l, In l (all_locales indirs) <-> exists d e, In d indirs /\ In e d /\ holds e l.
Proof.
  intro indirs. unfold all_locales. set (all := fold_left (fun s d => fold_left add_entry d s) indirs []).
  assert (forall d s, NoDup s -> NoDup (fold_left add_entry d s) /\ forall k, In k (fold_left add_entry d s) <-> In k s \/ exists e, In e d /\ holds e k) as F1.
  { induction d as [|e d IH]; intros s ND; cbn [fold_left]; [split; [assumption|intro k; split; [auto|intros [H|(e & [] & _)]; assumption]]|].
    destruct (add_entry_spec s e ND) as [N1 I1]. destruct (IH _ N1) as [N2 I2]. split; [assumption|]. intro k. rewrite I2, I1. split.
    - intros [[H|H]|(e' & He & H)]; [auto|right; exists e; split; [now left|assumption]|right; exists e'; split; [now right|assumption]].
    - intros [H|(e' & [<-|He] & H)]; eauto. }
  assert (forall ds s, NoDup s -> NoDup (fold_left (fun s d => fold_left add_entry d s) ds s) /\
    forall k, In k (fold_left (fun s d => fold_left add_entry d s) ds s) <-> In k s \/ exists d e, In d ds /\ In e d /\ holds e k) as F2.
  { induction ds as [|d ds IH]; intros s ND; cbn [fold_left]; [split; [assumption|intro k; split; [auto|intros [H|(d & e & [] & _)]; assumption]]|].
    destruct (F1 d s ND) as [N1 I1]. destruct (IH _ N1) as [N2 I2]. split; [assumption|]. intro k. rewrite I2, I1. split.
    - intros [[H|(e & He & H)]|(d' & e & Hd & He & H)]; [auto| |].
      + right. exists d, e. split; [now left|auto]. + right. exists d', e. split; [now right|auto].
    - intros [H|(d' & e & [<-|Hd] & He & H)]; eauto 7. }
  destruct (F2 indirs [] (NoDup_nil _)) as [ND I]. fold all in ND, I. split.
  - now apply strict_sort.
  - intro l. rewrite (in_isort strleb). rewrite I. cbn [In]. split; [intros [[]|H]; exact H|auto].
Qed.

(** * Examples *)

(** A small flattening: the content of the locale followed by that of its parent. Documents are the bytes. *)
Definition ex_parent (l : pystr) : pystr := firstn 1 l.
Definition ex_read (dir l : pystr) (s : store) : option (list N) := s (dir ++ lit "/" ++ l ++ lit ".xml").
Definition ex_flatten (dir : pystr) (s : store) (coll : bool) (l : pystr) : res (option (list N)) :=
  match ex_read dir l s with
  | None => Ok None
  | Some c =>
      if streq c [33%N] then Raise SyntaxErr
      else Ok (Some (if streq (ex_parent l) l then c
                     else c ++ match ex_read dir (ex_parent l) s with Some d => d | None => [] end))
  end.
(** one byte at a time *)
Definition ex_write (d : list N) : list (list N) * option exn := (map (fun c => [c]) d, None).
Definition ex_store (dir : pystr) (l : list (pystr * list N)) : store :=
  fun p => dget streq (map (fun kv : pystr * list N => (dir ++ lit "/" ++ fst kv ++ lit ".xml", snd kv)) l) p.
Definition ex_git (ok : bool) (d : list N) : res pystr :=
  Ok (if ok then lit "abc" ++ 10%N :: lit "2026" else if streq d [1%N] then [] else if streq d [2%N] then lit "x" else lit "abc" ++ 10%N :: lit "2026").
Definition ex_run (src : pystr) (git : bool) (git_log : list N -> res pystr) (s : store) (n : nat) (ls : list pystr) (sched : list nat) : pool :=
  run (list N) (ex_flatten src) None git git_log (fun r d => Ok d) true (Some (lit "o")) (fun c => [c]) ex_write (start s n ls) sched.
Definition ex_isolated src := isolated (list N) (ex_flatten src) true (Some (lit "o")) (fun c => [c]).

(** The hypotheses are met: three locales, one of which cannot be read and one listed twice. *)
Definition ex_in : store := ex_store (lit "i") [(lit "a", [1%N; 2%N]); (lit "a_B", [3%N]); (lit "c", [33%N])].
Definition ex_ls : list pystr := [lit "a_B"; lit "c"; lit "a"; lit "a_B"; lit "zz"].
(** two workers write the same file in turns *)
Definition ex_sched : list nat := [0; 1; 0; 1; 0; 1; 1; 0; 1; 0; 0; 1; 0; 1; 1; 0; 1; 0; 0; 1; 1; 0; 0; 1; 1; 0; 0; 2; 2; 2; 1; 1; 1; 1; 1; 1].
Lemma ex_iso : ex_isolated (lit "i") ex_ls.
Proof.
  intros s s' coll l H.
  assert (forall k, ex_read (lit "i") k s = ex_read (lit "i") k s') as R.
  { intro k. unfold ex_read. apply H. intros l' _ (o & E & [[X _]|(_ & c & r & -> & E2)]); [discriminate|].
    injection E as <-. vm_compute in E2. destruct c as [|c]; [discriminate|].
    repeat (destruct c; try discriminate). }
  unfold ex_flatten. rewrite !R. destruct (ex_read (lit "i") l s'); [|reflexivity]. destruct (streq l0 [33%N]); [reflexivity|].
  destruct (streq (ex_parent l) l); reflexivity.
Qed.

Fixpoint all_doneb (bs : list batch) : bool := match bs with [] => true | b :: bs => (finished b && all_doneb bs)%bool end.
Lemma all_doneb_spec P : all_doneb (batches P) = true -> all_finished P.
Proof.
  unfold all_finished. induction (batches P) as [|b bs IH]; intros H c; [intros []|]. cbn in H. apply andb_true_iff in H as [H1 H2].
  intros [<-|Hc]; auto.
Qed.
Example C82_met :
  ex_isolated (lit "i") ex_ls /\ Forall plain ex_ls /\
  let P := ex_run (lit "i") false (ex_git true) ex_in 1 ex_ls ex_sched in
  all_finished P /\
  files P (lit "o/a/a_B.xml") = Some [3%N; 1%N; 2%N] /\ files P (lit "o/a/a.xml") = Some [1%N; 2%N] /\
  exists rs, get P = Ok rs /\ reported rs = [(lit "c", Some SyntaxErr); (lit "zz", None)].
Proof.
  split; [apply ex_iso|]. split.
  - repeat (constructor; [intro X; vm_compute in X; intuition discriminate|]). constructor.
  - cbv zeta. split; [apply all_doneb_spec; vm_compute; reflexivity|]. split; [vm_compute; reflexivity|]. split; [vm_compute; reflexivity|].
    eexists. split; vm_compute; reflexivity.
Qed.

(** ** Finding: with the results put where the sources are, the order of the workers matters *)
Definition ex_same : store := ex_store (lit "o/a") [(lit "a", [1%N]); (lit "a_B", [3%N]); (lit "a_C", [4%N])].
Definition ex_two : list pystr := [lit "a_B"; lit "a"].
Theorem C82_inplace_refuted : exists sched sched',
  let P := ex_run (lit "o/a") false (ex_git true) ex_same 1 ex_two sched in
  let P' := ex_run (lit "o/a") false (ex_git true) ex_same 1 ex_two sched' in
  all_finished P /\ all_finished P' /\
  files P (lit "o/a/a_B.xml") = Some [3%N; 1%N] /\ files P' (lit "o/a/a_B.xml") = Some [3%N].
Proof.
  exists (repeat 0 10 ++ repeat 1 10), ([1; 1] ++ repeat 0 10 ++ repeat 1 10). cbv zeta.
  split; [apply all_doneb_spec; vm_compute; reflexivity|]. split; [apply all_doneb_spec; vm_compute; reflexivity|].
  split; vm_compute; reflexivity.
Qed.

(** ** Finding: a source without a commit (git log prints nothing) ends the whole run: no locale is
    reported, although one of them could not be read *)
Theorem C82_git_refuted : forall sched,
  let P := ex_run (lit "i") true (fun d => Ok []) ex_in 1 ex_ls sched in
  all_finished P -> get P = Raise ValueError.
Proof.
  intros sched P F.
  assert (Forall plain ex_ls) as Pl by (repeat (constructor; [intro X; vm_compute in X; intuition discriminate|]); constructor).
  destruct (C82_schedule (list N) (ex_flatten (lit "i")) None true (fun d => Ok []) (fun r d => Ok d) true (Some (lit "o"))
    (fun c => [c]) ex_write ex_ls ex_in 1 sched ex_iso Pl (le_n 1) F) as (_ & hs & H1 & _ & H3).
  fold (ex_run (lit "i") true (fun d => Ok []) ex_in 1 ex_ls sched) in H3. fold P in H3.
  assert (forall l d, handled (list N) (ex_flatten (lit "i")) None true (fun _ => Ok []) (fun r d => Ok d) true (Some (lit "o")) (fun c => [c]) ex_write
    ex_in false l (fst d) (snd d) -> forall x, snd d = Some x -> x = ValueError) as V.
  { intros l [d y]. cbn [fst snd]. induction 1 as [|k ks d y r A H IH|k ks y B]; intros x E; [discriminate|auto|]. injection E as <-.
    apply breaks_begin in B. unfold begin in B. destruct (ex_flatten (lit "i") ex_in false k) as [[dd|]|]; cbn in B.
    - destruct B as [B|(p & cs & B)]; [now injection B|discriminate].
    - destruct B as [B|(p & cs & B)]; discriminate.
    - destruct B as [B|(p & cs & B)]; discriminate. }
  destruct (get P) as [rs|x].
  - exfalso. destruct H3 as [_ H3]. inversion H3 as [|l r ls rs' A H]; subst. apply answers_begin in A.
    vm_compute in A. destruct A as [A|(p & cs & A & _)]; discriminate.
  - f_equal. destruct H3 as (h & Hh & E). clear -H1 Hh E V. induction H1 as [|b h' bs hs Hb F IH]; [destruct Hh|].
    destruct Hh as [->|Hh]; [eapply V; eassumption|auto].
Qed.

(** ** Finding: one process and many processes do not do the same. What a locale yields with one process is
    computed with the collations flattened, with many without; and an unreadable locale ends the one-process run. *)
Theorem C82_single_refuted :
  exists s', single_run (list N) (ex_flatten (lit "i")) None false (ex_git true) (fun r d => Ok d) true (Some (lit "o")) (fun c => [c]) ex_write
    ex_in ex_ls [] = (s', Raise SyntaxErr) /\
  s' (lit "o/a/a_B.xml") = Some [3%N; 1%N; 2%N] /\ s' (lit "o/a/a.xml") = None.
Proof. eexists. split; [reflexivity|]. split; vm_compute; reflexivity. Qed.
