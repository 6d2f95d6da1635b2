(** C91: the text of an exemplar list shows every character. *)
From Coq Require Import Lia.
From Verif Require Import Py PyFacts M_UnicodeSets M_CharClasses T_UnicodeSets.
Open Scope N_scope.

(** * Specification *)
(** the characters of Unicode for private use *)
Definition private_use (c : N) : Prop := 0xE000 <= c <= 0xF8FF \/ 0xF0000 <= c <= 0xFFFFD \/ 0x100000 <= c <= 0x10FFFD.
(** the characters that ASCII shows *)
Definition graphic (c : N) : Prop := 33 <= c <= 126.
Section Spec.
  Variable charType : N -> category.
  Variable ignorable : N -> bool.
  Definition is_mark (c : N) : Prop := charType c = NON_SPACING_MARK \/ charType c = COMBINING_SPACING_MARK \/ charType c = ENCLOSING_MARK.
  (** a character that shows nothing of its own *)
  Definition unseen (c : N) : Prop := ignorable c = true \/ charType c = FORMAT_CHAR \/ charType c = SPACE_SEPARATOR.
  (** what is known of ASCII *)
  Definition sane : Prop := forall c, graphic c -> ~ is_mark c /\ ~ unseen c.
End Spec.

(** * Proof *)
Lemma cat_eqb_spec a b : cat_eqb a b = true <-> a = b.
Proof. destruct a, b; cbn; split; congruence. Qed.
Lemma pua_spec c : is_pua c = true <-> (0xE000 <= c <= 0xF8FF \/ 0xFFF80 <= c <= 0xFFFFD \/ 0x10FF80 <= c <= 0x10FFFD).
Proof.
  unfold is_pua.
  destruct (N.leb_spec 57344 c), (N.leb_spec c 63743), (N.leb_spec 1048448 c), (N.ltb_spec c 1048574), (N.leb_spec 1113984 c), (N.ltb_spec c 1114110);
    cbn [andb]; split; intro; try reflexivity; try discriminate; lia.
Qed.
Section Proof.
  Variable charType : N -> category.
  Variable ignorable : N -> bool.
  Notation need := (need_hex_escape charType ignorable).
  Notation is_mark := (is_mark charType).
  Notation unseen := (unseen charType ignorable).
  Lemma ismark_spec c : ismark charType c = true <-> is_mark c.
  Proof. unfold ismark, T_CharClasses.is_mark. rewrite !orb_true_iff, !cat_eqb_spec. tauto. Qed.
  Lemma need_spec c iso : need c iso = true <-> (is_mark c /\ iso = true) \/ unseen c \/ is_pua c = true.
  Proof.
    unfold need_hex_escape, T_CharClasses.unseen, isformat, is_space_separator.
    rewrite <- ismark_spec, <- !cat_eqb_spec.
    destruct (ismark charType c), iso, (ignorable c), (cat_eqb (charType c) FORMAT_CHAR), (cat_eqb (charType c) SPACE_SEPARATOR), (is_pua c);
      cbn; intuition congruence.
  Qed.
  Lemma hexdig_graphic v : graphic (hexdig (N.modulo v 16)).
  Proof.
    pose proof (N.mod_lt v 16 ltac:(lia)) as H. unfold graphic, hexdig. revert H. generalize (N.modulo v 16). intros m H.
    destruct (N.ltb_spec m 10); lia.
  Qed.
  Lemma hexpad_graphic n : forall v c, In c (hexpad n v) -> graphic c.
  Proof.
    induction n as [|n IH]; intros v c; cbn [hexpad]; [intros []|]. rewrite in_app_iff. intros [H|[<-|[]]]; [eapply IH, H|]. apply hexdig_graphic.
  Qed.
  Lemma hex_graphic c x : In x (escape_using_hex c) -> graphic x.
  Proof.
    unfold escape_using_hex. destruct (N.ltb 65535 c); rewrite in_app_iff; (intros [[<-|[<-|[]]]|H]; [unfold graphic; cbn; lia|unfold graphic; cbn; lia|eapply hexpad_graphic, H]).
  Qed.
  Lemma body_shown : sane charType ignorable -> forall s iso c, In c (hex_escape need iso s) -> ~ unseen c /\ is_pua c = false.
  Proof.
    intros Sa. assert (forall x, graphic x -> ~ unseen x /\ is_pua x = false) as G.
    { intros x Hx. split; [now apply Sa|]. destruct (is_pua x) eqn:E; [|reflexivity]. apply pua_spec in E. unfold graphic in Hx. lia. }
    induction s as [|a s IH]; intros iso c; cbn [hex_escape]; [intros []|]. destruct (need a iso) eqn:E.
    - rewrite in_app_iff. intros [H|H]; [apply G; eapply hex_graphic, H|eapply IH, H].
    - intros [<-|H]; [|eapply IH, H]. assert (need a iso <> true) as E' by congruence. rewrite need_spec in E'.
      split; [tauto|]. destruct (is_pua a); tauto.
  Qed.
  Lemma split_at {X} (a b : list X) : forall pre m post, a ++ b = pre ++ m :: post -> In m a \/ exists pre', pre = a ++ pre' /\ b = pre' ++ m :: post.
  Proof.
    induction a as [|x a IH]; intros pre m post E; [right; now exists pre|]. destruct pre as [|y pre]; cbn in E; injection E as -> E; [left; now left|].
    destruct (IH pre m post E) as [H|(pre' & -> & ->)]; [left; now right|right]. now exists pre'.
  Qed.
  Lemma hex_last c : exists q p, escape_using_hex c = q ++ [p].
  Proof. unfold escape_using_hex. destruct (N.ltb 65535 c); cbn [hexpad]; eexists _, _; rewrite app_assoc; reflexivity. Qed.
  Lemma marks_not_alone : sane charType ignorable -> forall s iso pre m post, hex_escape need iso s = pre ++ m :: post -> is_mark m ->
    (pre = [] /\ iso = false) \/ exists q p, pre = q ++ [p] /\ p <> 32.
  Proof.
    intros Sa. induction s as [|c s IH]; intros iso pre m post E Hm; cbn [hex_escape] in E; [destruct pre; discriminate|].
    destruct (need c iso) eqn:En.
    - apply split_at in E as [H|(pre' & -> & E)]; [apply hex_graphic in H; apply Sa in H; tauto|]. right.
      destruct (IH _ _ _ _ E Hm) as [[-> _]|(q & p & -> & Hp)].
      + destruct (hex_last c) as (q & p & Eq). exists q, p. rewrite app_nil_r. split; [exact Eq|].
        assert (graphic p) as G by (apply (hex_graphic c); rewrite Eq, in_app_iff; right; now left). unfold graphic in G. lia.
      + exists (escape_using_hex c ++ q), p. now rewrite app_assoc.
    - destruct pre as [|y pre]; cbn [app] in E; injection E as -> E.
      + left. split; [reflexivity|]. destruct iso; [|reflexivity]. exfalso. assert (need m true = true) as H by (apply need_spec; auto). congruence.
      + right. destruct (IH _ _ _ _ E Hm) as [[-> Hc]|(q & p & -> & Hp)].
        * exists [], y. split; [reflexivity|]. now apply N.eqb_neq.
        * exists (y :: q), p. split; [reflexivity|exact Hp].
  Qed.

  (** ** C91: in the text of a list, each string is a body, in braces or not; no character of a
      body is unseen, and a mark never stands at its start or after a space *)
  Theorem C91_shown : sane charType ignorable -> forall l, exists items,
    list2us need l = lit "[" ++ join (lit " ") items ++ lit "]" /\
    Forall2 (fun s item => exists body, item = (if Nat.ltb 1 (length s) then lit "{" ++ body ++ lit "}" else body) /\
      (forall c, In c body -> ~ unseen c /\ ~ 0xE000 <= c <= 0xF8FF) /\
      (forall pre m post, body = pre ++ m :: post -> is_mark m -> exists q p, pre = q ++ [p] /\ p <> 32)) l items.
  Proof.
    intros Sa l. exists (map (us_item need) l). split; [reflexivity|]. induction l as [|s l IH]; cbn [map]; constructor; [|exact IH].
    exists (hex_escape need true (escape_us_syntax s)). split; [reflexivity|]. split.
    - intros c H. apply (body_shown Sa) in H as [H1 H2]. split; [exact H1|]. intros R. assert (is_pua c = true) as E by (apply pua_spec; auto). congruence.
    - intros pre m post E Hm. destruct (marks_not_alone Sa _ _ _ _ _ E Hm) as [[_ H]|H]; [discriminate|exact H].
  Qed.
  (** together with C01: nothing is lost by it *)
  Theorem C91_read_back : sane charType ignorable -> forall uni_digit l, good_list l ->
    exists r, us2list uni_digit (list2us need l) = Ok r /\ same_set r l.
  Proof.
    intros Sa ud l Hl. apply C01_exemplar_list_roundtrip; [|exact Hl]. intros c iso H Sy.
    assert (graphic c) as G by (unfold spec_syntax in Sy; revert Sy; cbn; unfold graphic; intuition lia).
    apply need_spec in H as [[H _]|[H|H]]; [now destruct (Sa c G)|now destruct (Sa c G)|]. apply pua_spec in H. unfold graphic in G. lia.
  Qed.

  (** ** C91: private use: what is taken for private use is; all of the first area is *)
  Theorem C91_pua : forall c, (is_pua c = true -> private_use c) /\ (0xE000 <= c <= 0xF8FF -> is_pua c = true).
  Proof. intro c. rewrite pua_spec. unfold private_use. split; lia. Qed.
  (** but most of the other two is not, and is written as it is *)
  Theorem C91_pua_refuted : forall c, 0xF0000 <= c < 0xFFF80 \/ 0x100000 <= c < 0x10FF80 -> ~ is_mark c -> ~ unseen c ->
    private_use c /\ list2us need [[c]] = [91; c; 93].
  Proof.
    intros c Hc Nm Nu. split; [unfold private_use; lia|].
    assert (is_pua c = false) as Ep by (destruct (is_pua c) eqn:E; [apply pua_spec in E; lia|reflexivity]).
    assert (need c true = false) as En by (destruct (need c true) eqn:E; [apply need_spec in E; rewrite Ep in E; intuition congruence|reflexivity]).
    assert (escape_us_syntax [c] = [c]) as Es.
    { unfold escape_us_syntax, escapechar. cbn [flat_map]. destruct (inchars c us_syntax) eqn:Ei; [|reflexivity]. exfalso.
      unfold inchars in Ei. apply existsb_exists in Ei as (x & Hx & Ex). apply N.eqb_eq in Ex. subst x. revert Hx. cbn. intuition lia. }
    unfold list2us. cbn [map]. unfold us_item. rewrite Es. cbn [length hex_escape]. rewrite En. reflexivity.
  Qed.
  (** a mark is not escaped after an escape, so it stands on the last digit of that *)
  Theorem C91_mark_after_escape_refuted : forall c m, need c true = true -> need m false = false -> inchars c us_syntax = false -> inchars m us_syntax = false ->
    list2us need [[c; m]] = lit "[{" ++ escape_using_hex c ++ [m] ++ lit "}]".
  Proof.
    intros c m Hc Hm Ic Im. unfold list2us, us_item, escape_us_syntax, escapechar. cbn [map flat_map length Nat.ltb Nat.leb]. rewrite Ic, Im. cbn [app hex_escape].
    rewrite Hc, Hm. cbn [join]. change (lit "[{") with [91; 123]. change (lit "}]") with [125; 93]. cbn [app]. rewrite <- !app_assoc. reflexivity.
  Qed.
End Proof.
(** ** C91: variation selectors: those taken for one are, but the Mongolian ones are not *)
(** the numbers are the categories Nd and No *)
Theorem C91_numbers charType c : isnumber charType c = true <-> charType c = DECIMAL_DIGIT_NUMBER \/ charType c = OTHER_NUMBER.
Proof. unfold isnumber. now rewrite orb_true_iff, !cat_eqb_spec. Qed.
Theorem C91_vs : forall c, is_vs c = true <-> 0xFE00 <= c <= 0xFE0F \/ 0xE0100 <= c <= 0xE01EF.
Proof.
  intro c. unfold is_vs.
  destruct (N.leb_spec 65024 c), (N.leb_spec c 65039), (N.leb_spec 917760 c), (N.leb_spec c 917999); cbn [andb]; split; intro; try reflexivity; try discriminate; lia.
Qed.

(** * The hypotheses are met: acute, zero width non-joiner and space as in Unicode *)
Definition ex_type (c : N) : category := if N.eqb c 769 then NON_SPACING_MARK else if N.eqb c 8204 then FORMAT_CHAR else if N.eqb c 32 then SPACE_SEPARATOR else OTHER_CATEGORY.
Definition ex_ign (c : N) : bool := N.eqb c 8204.
Example C91_met : sane ex_type ex_ign /\ ~ is_mark ex_type 0xF0000 /\ ~ unseen ex_type ex_ign 0xF0000 /\
  list2us (need_hex_escape ex_type ex_ign) [[769]; lit "b" ++ [769]; [8204; 769]; [0xE000]] =
    lit "[" ++ (92 :: lit "u0301 {b") ++ [769] ++ lit "} {" ++ (92 :: lit "u200c") ++ [769] ++ lit "} " ++ (92 :: lit "ue000]").
Proof.
  assert (forall c, c <> 769 -> c <> 8204 -> c <> 32 -> ~ is_mark ex_type c /\ ~ unseen ex_type ex_ign c) as H.
  { intros c A B C. unfold is_mark, unseen, ex_type, ex_ign. apply N.eqb_neq in A, B, C. rewrite A, B, C. intuition discriminate. }
  split; [intros c G; unfold graphic in G; apply H; lia|]. split; [apply H; lia|]. split; [apply H; lia|]. vm_compute. reflexivity.
Qed.
