(** C10 continued: what the pieces of a tailoring mean (level of an operator, element and
    expansion of a relation, reset point). *)
From Verif Require Import Py PyFacts M_UnicodeSets P_UnicodeSets M_Collation P_CollEsc P_Collation P_Collation2.
Open Scope N_scope.

(** text without the escape characters \ and ' *)
Definition plain (s : pystr) : Prop := ~ In 92 s /\ ~ In 39 s.

Lemma unescape_plain s : plain s -> coll_unescape s = Ok s.
Proof.
  intros [H1 H2]. unfold coll_unescape.
  assert (A : forall k, uhexsub k 0 s = Ok s).
  { intros k. clear H2. induction s as [|c s IH]; [reflexivity|]. rewrite uhexsub_none, IH.
    - reflexivity.
    - intros X. apply H1. now right.
    - apply uat_no92. intros ->. apply H1. now left. }
  rewrite A. cbn [bind]. f_equal. clear A.
  induction s as [|c s IH]; [reflexivity|].
  rewrite unbs_lit by (intros ->; apply H1; now left). rewrite unq_lit by (intros ->; apply H2; now left).
  f_equal. apply IH; intros X; [apply H1|apply H2]; now right.
Qed.
Lemma drop_comments_none ws s : ~ In 35 s -> drop_comments ws false s = s.
Proof.
  induction s as [|c s IH]; intros H; [reflexivity|]. cbn [drop_comments].
  assert (E : drop_comments ws false s = s) by (apply IH; intros X; apply H; now right).
  rewrite E. destruct s as [|d s]; [reflexivity|].
  assert (Hd : d <> 35) by (intros ->; apply H; right; now left). clear - Hd. nodigit d.
Qed.

(** ** Level *)
Theorem C10_operator_level : forall ws op,
  op <> [] -> (forall c, In c op -> c = 60 \/ c = 61) ->
  (op = lit "=" -> op_level ws op = 4%nat) /\
  (op <> lit "=" -> op_level ws op = length (filter (fun c => c =? 60) op)).
Proof.
  intros ws op Hne H. unfold op_level. rewrite drop_comments_none.
  - split.
    + intros ->. reflexivity.
    + intros Hn. destruct (streq_spec op [61]) as [->|_]; [now destruct Hn|].
      f_equal. apply filter_ext. intros c. apply N.eqb_sym.
  - intros X. apply H in X as [X|X]; discriminate.
Qed.
Print Assumptions C10_operator_level.
Corollary C10_operator_levels : forall ws,
  op_level ws (lit "<") = 1%nat /\ op_level ws (lit "<<") = 2%nat /\ op_level ws (lit "<<<") = 3%nat /\
  op_level ws (lit "=") = 4%nat.
Proof. intros. repeat split; reflexivity. Qed.

(** ** Element and expansion *)
Lemma find_char_none c s : ~ In c s -> find_char c s = None.
Proof.
  induction s as [|x s IH]; cbn; intros H; [reflexivity|].
  destruct (N.eqb_spec x c); [tauto|]. now rewrite IH by tauto.
Qed.
Lemma find_char_at c p q : ~ In c p -> find_char c (p ++ c :: q) = Some (length p).
Proof.
  induction p as [|x p IH]; cbn; intros H; [now rewrite N.eqb_refl|].
  destruct (N.eqb_spec x c); [tauto|]. now rewrite IH by tauto.
Qed.

Theorem C10_element : forall ws text, plain text -> ~ In 35 text ->
  (~ In 47 text -> rel_key ws text = Ok (text, [])) /\
  (forall el exp, text = el ++ [47] ++ exp -> el <> [] -> ~ In 47 el ->
     rel_key ws text = Ok (strip ws el, strip ws exp)).
Proof.
  intros ws text Hp Hc. unfold rel_key. rewrite drop_comments_none by exact Hc.
  rewrite unescape_plain by exact Hp. cbn [bind]. split.
  - intros H. now rewrite find_char_none.
  - intros el exp -> Hne H. cbn [app]. rewrite find_char_at by exact H.
    destruct el as [|x el]; [congruence|]. cbn [length].
    replace (firstn (S (length el)) ((x :: el) ++ 47 :: exp)) with (x :: el)
      by (apply (prefix_firstn (x :: el))).
    replace (skipn (S (S (length el))) ((x :: el) ++ 47 :: exp)) with exp; [reflexivity|].
    cbn [app skipn]. clear. induction el as [|y el IH]; [reflexivity|]. exact IH.
Qed.
Print Assumptions C10_element.

(** an escaped element: what [escape] writes is read back as the element *)
Theorem C10_escaped_element : forall ws is_mark el,
  ~ In 35 el -> ~ In 47 el -> ~ occurs el ->
  rel_key ws (coll_escape is_mark false el) = Ok (el, []).
Proof.
  intros ws im el Hc Hs Ho. unfold rel_key. rewrite drop_comments_none.
  - rewrite (proj2 (escape_roundtrip im el) Ho). cbn [bind]. now rewrite find_char_none.
  - rewrite escape_false. intros X. unfold E in X. apply in_flat_map in X as (c & Hin & X).
    destruct (esc1_cases c) as [[_ R]|[[-> R]|(_ & _ & _ & R)]]; rewrite R in X; cbn in X;
      intuition (subst; try discriminate; contradiction).
Qed.
Print Assumptions C10_escaped_element.

(** ** Reset point *)
(** a text that starts and ends with something other than white space *)
Definition trim (ws : N -> bool) (s : pystr) : Prop :=
  exists x y m, (s = [x] \/ s = x :: m ++ [y]) /\ ws x = false /\ (s = x :: m ++ [y] -> ws y = false).

Lemma lstrip_ws ws p s : forallb ws p = true -> lstrip ws (p ++ s) = lstrip ws s.
Proof. induction p as [|c p IH]; cbn; intros H; [reflexivity|]. apply andb_prop in H as [-> H]. auto. Qed.
Lemma lstrip_head ws x s : ws x = false -> lstrip ws (x :: s) = x :: s.
Proof. intros H. cbn. now rewrite H. Qed.
Lemma rev_ws (ws : N -> bool) p : forallb ws p = true -> forallb ws (rev p) = true.
Proof. rewrite !forallb_forall. intros H x Hx. apply H. now apply in_rev. Qed.
Lemma strip_trim ws p s q : forallb ws p = true -> forallb ws q = true -> 
  (exists x m, s = x :: m /\ ws x = false) -> (exists y m, s = m ++ [y] /\ ws y = false) ->
  strip ws (p ++ s ++ q) = s.
Proof.
  intros Hp Hq (x & m & Es & Hx) (y & m' & Es' & Hy). unfold strip.
  rewrite lstrip_ws by exact Hp. rewrite Es at 1. cbn [app]. rewrite lstrip_head by exact Hx.
  rewrite app_comm_cons, <- Es, rev_app_distr, lstrip_ws by now apply rev_ws.
  rewrite Es' at 1. rewrite rev_app_distr. cbn [rev app]. rewrite lstrip_head by exact Hy.
  change (y :: rev m') with (rev [y] ++ rev m'). rewrite <- rev_app_distr, rev_involutive. now symmetry.
Qed.
Lemma rstrip_trim ws s : (exists y m, s = m ++ [y] /\ ws y = false) -> rstrip ws s = s.
Proof.
  intros (y & m & -> & Hy). unfold rstrip. rewrite rev_app_distr. cbn [rev app].
  rewrite lstrip_head by exact Hy. change (y :: rev m) with (rev [y] ++ rev m).
  now rewrite <- rev_app_distr, rev_involutive.
Qed.
Lemma op_split_plain s : (forall c, In c s -> c <> 60 /\ c <> 61) -> op_split s = (s, []).
Proof.
  induction s as [|c s IH]; intros H; [reflexivity|]. cbn [op_split].
  rewrite IH by (intros x Hx; apply H; now right).
  destruct (H c (or_introl eq_refl)) as [A B]. unfold isop.
  apply N.eqb_neq in A, B. now rewrite A, B.
Qed.

(** what the first text of a reset says: blanks, base, blanks; and the same with a
    [before n] mark *)
Definition base_text (ws : N -> bool) (s : pystr) : Prop :=
  plain s /\ ~ In 10 s /\ (forall c, In c s -> c <> 60 /\ c <> 61) /\
  (exists x m, s = x :: m /\ ws x = false /\ x <> 91 /\ x <> 38) /\ (exists y m, s = m ++ [y] /\ ws y = false).

Theorem C10_reset : forall ws isd dval p base q,
  forallb ws p = true -> forallb ws q = true -> (forall c, In c (p ++ q) -> c <> 60 /\ c <> 61) ->
  base_text ws base ->
  run_bits ws isd dval (p ++ base ++ q) = Ok (Some (base, 0, [])).
Proof.
  intros ws isd dval p base q Hp Hq Hpq (Hpl & Hnl & Hop & (x & m & Es & Hx & Hx1 & Hx2) & Hy).
  unfold run_bits. rewrite op_split_plain.
  2:{ intros c Hc. rewrite !in_app_iff in Hc. destruct Hc as [Hc|[Hc|Hc]]; auto; apply Hpq; apply in_or_app; auto. }
  rewrite strip_trim; eauto. rewrite unescape_plain by exact Hpl. cbn [bind map].
  replace (base_match ws isd dval base) with (base_match ws isd dval (x :: m)) by now rewrite Es.
  unfold base_match. cbv zeta. rewrite lstrip_head by exact Hx.
  assert (E1 : (match x :: m with 38 :: r => lstrip ws r | _ => x :: m end) = x :: m) by (clear - Hx2; nodigit x).
  rewrite E1.
  assert (E2 : before_mark ws isd dval (x :: m) = None).
  { unfold before_mark. cbn [lit strip_prefix]. change (lit "[before") with (91 :: lit "before"). cbn [strip_prefix].
    replace (91 =? x) with false by (symmetry; apply N.eqb_neq; congruence). reflexivity. }
  rewrite E2, <- Es, rstrip_trim by exact Hy.
  apply inchars_false in Hnl. now rewrite Hnl.
Qed.
Print Assumptions C10_reset.

Theorem C10_reset_before : forall ws isd dval p w d b1 b2 base q,
  ws 91 = false -> ws d = false -> ws 93 = false -> isd d = true -> d <> 92 -> d <> 39 -> d <> 60 -> d <> 61 -> d <> 10 ->
  ws 10 = true ->
  forallb ws (p ++ w ++ b1 ++ b2 ++ q) = true -> w <> [] ->
  (forall c, In c (p ++ w ++ b1 ++ b2 ++ q) -> c <> 60 /\ c <> 61 /\ c <> 92 /\ c <> 39) ->
  base_text ws base ->
  run_bits ws isd dval (p ++ (lit "[before" ++ w ++ [d] ++ b1 ++ [93] ++ b2 ++ base) ++ q) = Ok (Some (base, dval d, [])).
Proof.
  intros ws isd dval p w d b1 b2 base q H91 Hd H93 Hisd D1 D2 D3 D4 D5 _ Hws Hw Hcs (Hpl & Hnl & Hop & (x & m & Es & Hx & Hx1 & Hx2) & Hy).
  rewrite !forallb_app, !andb_true_iff in Hws. destruct Hws as (Wp & Ww & W1 & W2 & Wq).
  assert (Hcs' : forall c, In c (p ++ (lit "[before" ++ w ++ [d] ++ b1 ++ [93] ++ b2 ++ base) ++ q) ->
            (c <> 60 /\ c <> 61) /\ (c <> 92 /\ c <> 39)).
  { intros c Hc. rewrite !in_app_iff in Hc.
    assert (X : In c (p ++ w ++ b1 ++ b2 ++ q) \/ In c (lit "[before") \/ c = d \/ c = 93 \/ In c base).
    { rewrite !in_app_iff. assert (Q : forall y, In c [y] -> c = y) by (intros y [Y|[]]; auto).
      pose proof (Q d). pose proof (Q 93). tauto. }
    clear Hc. destruct X as [X|[X|[X|[X|X]]]].
    - apply Hcs in X. tauto.
    - cbn in X. intuition (subst; discriminate).
    - subst. auto.
    - subst. repeat split; discriminate.
    - split; [auto|]. destruct Hpl as [P1 P2]. split; intros ->; contradiction. }
  set (S := lit "[before" ++ w ++ [d] ++ b1 ++ [93] ++ b2 ++ base) in *.
  unfold run_bits. rewrite op_split_plain by (intros c Hc; now apply Hcs').
  rewrite (strip_trim ws p S q Wp Wq).
  2:{ exists 91, (lit "before" ++ w ++ [d] ++ b1 ++ [93] ++ b2 ++ base). split; [reflexivity|exact H91]. }
  2:{ destruct Hy as (y & m' & E & Hy). exists y, (lit "[before" ++ w ++ [d] ++ b1 ++ [93] ++ b2 ++ m').
      split; [|exact Hy]. unfold S. rewrite E. now rewrite <- !app_assoc. }
  rewrite unescape_plain.
  2:{ split; intros X; destruct (Hcs' _ (in_or_app _ _ _ (or_intror (in_or_app _ _ _ (or_introl X))))); tauto. }
  cbn [bind map]. unfold base_match. cbv zeta.
  assert (E1 : lstrip ws S = S) by (unfold S; change (lit "[before") with (91 :: lit "before"); cbn [app]; now apply lstrip_head).
  rewrite E1.
  assert (E2 : (match S with 38 :: r => lstrip ws r | _ => S end) = S) by reflexivity.
  rewrite E2.
  assert (E3 : before_mark ws isd dval S = Some (dval d, base)).
  { unfold before_mark, S. destruct w as [|w0 w]; [congruence|].
    assert (P : forall r, strip_prefix (lit "[before") (lit "[before" ++ r) = Some r) by reflexivity.
    rewrite P. cbn [app]. cbn in Ww. apply andb_prop in Ww as [-> Ww].
    rewrite lstrip_ws by exact Ww. rewrite lstrip_head by exact Hd. rewrite Hisd.
    rewrite lstrip_ws by exact W1. rewrite lstrip_head by exact H93.
    rewrite lstrip_ws by exact W2. rewrite Es. now rewrite lstrip_head by exact Hx. }
  rewrite E3. rewrite rstrip_trim by exact Hy. apply inchars_false in Hnl. now rewrite Hnl.
Qed.
Print Assumptions C10_reset_before.

Example C10_reset_nontrivial :
  base_text (fun c => c =? 32) (lit "ch") /\
  run_bits (fun c => c =? 32) is_digit (fun c => c - 48) (lit " [before 2] ch  ") = Ok (Some (lit "ch", 2, [])).
Proof.
  split; [|reflexivity]. unfold base_text, plain. cbn.
  split; [split; intuition congruence|]. split; [intuition congruence|].
  split; [intros c Hc; intuition (subst; discriminate)|]. split.
  - exists 99, [104]. repeat split; discriminate.
  - exists 104, [99]. split; reflexivity.
Qed.

(** a relation text is read relative to operators that surround it: bits are stripped *)
Theorem C10_relation_texts : forall ws isd dval run base before relations,
  run_bits ws isd dval run = Ok (Some (base, before, relations)) ->
  exists first raw, op_split run = (first, raw) /\
    relations = map (fun p => (strip ws (fst p), strip ws (snd p))) raw.
Proof.
  intros ws isd dval run base before rels. unfold run_bits. destruct (op_split run) as [t r].
  destruct (coll_unescape (strip ws t)) as [u|]; cbn [bind]; [|discriminate].
  destruct (base_match ws isd dval u) as [[b bf]|]; [|discriminate].
  intros H. injection H as <- <- <-. eauto.
Qed.
