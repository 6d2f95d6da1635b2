(** Properties C01-C04: UnicodeSet text. Specification and theorems. *)
From Verif Require Import Py PyFacts M_UnicodeSets P_UnicodeSets P_UnicodeSets2.
Open Scope N_scope.

(** * Specification vocabulary *)

(** the characters with a meaning in UnicodeSet notation *)
Definition spec_syntax (c : N) : Prop := In c (lit "[]{}\&-|^$:").

(** [s] reads u, U or x followed by 4, 8 or 2 hex digits: after a backslash that would be
    a hex escape *)
Definition reads_as_hex_escape (s : pystr) : Prop :=
  exists h t, forallb is_hex h = true /\
    ((s = 117 :: h ++ t /\ length h = 4%nat) \/ (s = 85 :: h ++ t /\ length h = 8%nat)
     \/ (s = 120 :: h ++ t /\ length h = 2%nat)).

(** A string that survives: not empty, code points only, no space; and a backslash in it is
    either the whole string or is followed by something that is neither a closing bracket
    nor the tail of a hex escape. *)
Definition good_string (s : pystr) : Prop :=
  s <> [] /\ (forall c, In c s -> c < 1114112 /\ c <> 32) /\
  (forall before after, s = before ++ 92 :: after ->
     (before = [] /\ after = []) \/
     (after <> [] /\ ~ reads_as_hex_escape after /\ (forall t, after <> 93 :: t))).

(** A list that survives: good strings, and the string "\" is not followed by "]". *)
Definition good_list (l : list pystr) : Prop :=
  Forall good_string l /\ (forall a b, l <> a ++ [92] :: [93] :: b).

(** the same finite set *)
Definition same_set (a b : list pystr) : Prop := NoDup a /\ forall x, In x a <-> In x b.

(** * C01 *)
Theorem C01_exemplar_list_roundtrip :
  forall (uni_digit : N -> bool) (need_hex_escape : N -> bool -> bool) (l : list pystr),
    (forall c isolated, need_hex_escape c isolated = true -> ~ spec_syntax c) ->
    good_list l ->
    exists r, us2list uni_digit (list2us need_hex_escape l) = Ok r /\ same_set r l.
Proof.
  intros ud need l Hn Hl. exists (fold_left sadd l []). split.
  - apply us_roundtrip; [|exact Hl]. intros c iso H. apply inchars_false. exact (Hn c iso H).
  - split; [apply fold_sadd_NoDup; constructor|]. intros x. rewrite in_fold_sadd. cbn. tauto.
Qed.
Print Assumptions C01_exemplar_list_roundtrip.

(** strings without a backslash are good *)
Lemma good_string_plain s :
  s <> [] -> (forall c, In c s -> c < 1114112 /\ c <> 32 /\ c <> 92) -> good_string s.
Proof.
  intros Hne H. split; [exact Hne|]. split; [intros c Hc; apply H in Hc; tauto|].
  intros p q ->. destruct (H 92); [apply in_or_app; right; now left|tauto].
Qed.

(** The form in the property list: no space, no backslash. *)
Theorem C01_exemplar_list_roundtrip_no_backslash :
  forall (uni_digit : N -> bool) (need_hex_escape : N -> bool -> bool) (l : list pystr),
    (forall c isolated, need_hex_escape c isolated = true -> ~ spec_syntax c) ->
    (forall s, In s l -> s <> [] /\ forall c, In c s -> c < 1114112 /\ c <> 32 /\ c <> 92) ->
    exists r, us2list uni_digit (list2us need_hex_escape l) = Ok r /\ same_set r l.
Proof.
  intros ud need l Hn Hl. apply C01_exemplar_list_roundtrip; [exact Hn|]. split.
  - apply Forall_forall. intros s Hs. destruct (Hl s Hs). now apply good_string_plain.
  - intros a b ->. destruct (Hl [92]) as [_ H]; [apply in_or_app; right; now left|].
    destruct (H 92); [now left|tauto].
Qed.
Print Assumptions C01_exemplar_list_roundtrip_no_backslash.

(** a policy and a list that meet the hypotheses, with marks, braces and backslashes *)
Definition ex_policy (c : N) (iso : bool) : bool := N.eqb c 8205 || (N.eqb c 769 && iso).
Definition ex_list : list pystr :=
  [lit "a"; lit "ch"; [769]; [101; 769]; [8205; 98]; lit "["; lit "{x}"; lit "\"; lit "a\b"; lit "-"; [66560]].
Example C01_policy_ok : forall c isolated, ex_policy c isolated = true -> ~ spec_syntax c.
Proof.
  intros c iso H. unfold ex_policy in H. apply orb_prop in H as [H|H].
  - apply N.eqb_eq in H as ->. cbn. intuition discriminate.
  - apply andb_prop in H as [H _]. apply N.eqb_eq in H as ->. cbn. intuition discriminate.
Qed.
Example C01_list_ok : good_list ex_list.
Proof.
  split.
  - unfold ex_list.
    assert (P : forall s, negb (match s with [] => true | _ => false end) = true ->
       forallb (fun c => (c <? 1114112) && negb (c =? 32) && negb (c =? 92))%bool s = true -> good_string s).
    { intros s Hne H. apply good_string_plain; [destruct s; [discriminate|congruence]|].
      rewrite forallb_forall in H. intros c Hc. apply H in Hc.
      rewrite !andb_true_iff, N.ltb_lt, !negb_true_iff, !N.eqb_neq in Hc. tauto. }
    repeat first [apply Forall_cons; [try (apply P; reflexivity)|] | apply Forall_nil].
    + split; [discriminate|]. split; [intros c [<-|[]]; split; [reflexivity|discriminate]|].
      intros p q E. left. destruct p as [|x p]; [injection E as <-; auto|].
      destruct p; discriminate.
    + split; [discriminate|]. split.
      { intros c Hc. cbn in Hc. repeat destruct Hc as [<-|Hc]; try (split; [reflexivity|discriminate]); contradiction. }
      intros p q E. right. destruct p as [|x [|y [|z p]]]; cbn in E; try discriminate.
      * injection E as _ <-. split; [discriminate|]. split; [|discriminate].
        intros (h & t & _ & [[E _]|[[E _]|[E _]]]); discriminate.
      * injection E as _ _ _ E. destruct p; discriminate.
  - intros a b E. assert (H : In [93] ex_list) by (rewrite E; apply in_or_app; right; right; now left).
    cbn in H. intuition discriminate.
Qed.

(** Outside the guard the round trip fails. *)
Theorem C01_space_refuted :
  exists l, forall ud, us2list ud (list2us (fun _ _ => false) l) = Ok [lit "ab"] /\ l = [lit "a b"].
Proof. exists [lit "a b"]. intros ud. split; reflexivity. Qed.
Theorem C01_hex_text_refuted :
  exists l, forall ud, us2list ud (list2us (fun _ _ => false) l) = Ok [lit "A"] /\ l = [92 :: lit "u0041"].
Proof. exists [92 :: lit "u0041"]. intros ud. split; vm_compute; reflexivity. Qed.
Theorem C01_trailing_backslash_refuted :
  exists l, forall ud, us2list ud (list2us (fun _ _ => false) l) = Raise ValueError /\ l = [lit "a\"].
Proof. exists [lit "a\"]. intros ud. split; vm_compute; reflexivity. Qed.
Theorem C01_bracket_after_backslash_refuted :
  exists l, forall ud, us2list ud (list2us (fun _ _ => false) l) = Ok [lit "\"; lit "]"] /\ l = [lit "\"; lit "]"; lit "a"].
Proof. exists [lit "\"; lit "]"; lit "a"]. intros ud. split; vm_compute; reflexivity. Qed.
Theorem C01_bracket_in_string_refuted :
  exists l, forall ud, us2list ud (list2us (fun _ _ => false) l) = Ok [lit "\]"] /\ l = [lit "\]"; lit "a"].
Proof. exists [lit "\]"; lit "a"]. intros ud. split; vm_compute; reflexivity. Qed.
Theorem C01_empty_string_refuted :
  exists l, forall ud, us2list ud (list2us (fun _ _ => false) l) = Ok [] /\ l = [lit ""].
Proof. exists [lit ""]. intros ud. split; reflexivity. Qed.

(** * C02 *)
Theorem C02_range :
  forall (uni_digit : N -> bool) (lo hi : N),
    ~ spec_syntax lo -> ~ spec_syntax hi -> lo <> 32 -> hi <> 32 ->
    exists r, us2list uni_digit ([91] ++ [lo] ++ [45] ++ [hi] ++ [93]) = Ok r /\ NoDup r /\
      forall x, In x r <-> exists c, x = [c] /\ lo <= c <= hi.
Proof.
  intros ud lo hi Hlo Hhi Slo Shi. exists (char_range lo hi). split; [|split].
  - apply us_range; auto; apply inchars_false; assumption.
  - exact (seq_range_NoDup ud lo _ 0).
  - intros x. unfold char_range. rewrite in_map_iff. split.
    + intros (k & <- & Hk). apply in_seq in Hk. exists (lo + N.of_nat k). split; [reflexivity|lia].
    + intros (c & -> & Hc). exists (N.to_nat (c - lo)). split; [f_equal; lia|]. apply in_seq. lia.
Qed.
Print Assumptions C02_range.
Example C02_case : ~ spec_syntax 97 /\ ~ spec_syntax 102 /\ forall ud,
  us2list ud (lit "[a-f]") = Ok [lit "a"; lit "b"; lit "c"; lit "d"; lit "e"; lit "f"].
Proof. cbn. repeat split; try (intuition discriminate). Qed.

(** A second operator in the same class loses or breaks the set. *)
Theorem C02_second_range_refuted :
  forall ud, us2list ud (lit "[a-c-e]") = Ok [lit "a"; lit "b"; lit "c"; lit "-"].
Proof. intros ud. reflexivity. Qed.
Theorem C02_second_operator_refuted :
  forall ud, us2list ud (lit "[a|b|c]") = Raise AttributeError.
Proof. intros ud. reflexivity. Qed.

(** * C03 *)
Theorem C03_parse_terminates :
  forall (uni_digit : N -> bool) (s : pystr),
    (exists r, us_parse uni_digit s = Ok r) \/ us_parse uni_digit s = Raise IndexError \/
    us_parse uni_digit s = Raise ValueError \/ us_parse uni_digit s = Raise AttributeError \/
    us_parse uni_digit s = Raise TypeError.
Proof.
  intros ud s. pose proof (us_parse_fine ud s) as H. unfold fine, parse_exn in H.
  destruct (us_parse ud s) as [r|e]; [left; eauto|right].
  destruct H as [->|[->|[->| ->]]]; tauto.
Qed.
Print Assumptions C03_parse_terminates.

(** every item consumes at least one character and is a set *)
Theorem C03_item_progress :
  forall (uni_digit : N -> bool) (s : pystr) (ind end_ : nat) last i' a b,
    ind <> end_ ->
    parseitem uni_digit (length s) s ind last end_ = Ok (i', a, b) -> (ind < i')%nat /\ b <> None.
Proof.
  intros ud s ind end_ last i' a b Hne. exact (proj2 (parseitem_inv ud s (length s) ind last end_ ltac:(lia)) Hne i' a b).
Qed.
Print Assumptions C03_item_progress.
Example C03_case_ok : forall ud, us_parse ud (lit "[a-c{de}]") <> Raise IndexError /\
  us_parse ud (lit "[") = Raise IndexError /\ us_parse ud (lit "[a") = Raise ValueError /\
  us_parse ud (lit "[{ab}-c]") = Raise TypeError /\ us_parse ud (lit "[a|b|c]") = Raise AttributeError.
Proof. intros ud. repeat split; try (vm_compute; discriminate); vm_compute; reflexivity. Qed.

(** * C04 *)
(** [x] is the least member of [S] in code point order *)
Definition is_least (x : pystr) (S : list pystr) : Prop := In x S /\ forall y, In y S -> strleb x y = true.

(** The choices of one member per set, apart from the choice of all the least members, are
    enumerated without repetition; the yielded strings are their concatenations. *)
Theorem C04_flatten_enumerates :
  forall (uni_digit : N -> bool) (s : pystr) (sets : list uset),
    us_parse uni_digit s = Ok sets ->
    (forall u x, In u sets -> In x (us_items u) -> forall t, x <> 92 :: t) ->
    exists rounds, forall fuel, (rounds <= fuel)%nat ->
    exists choices, us_flatten uni_digit fuel s = Ok (map (@concat N) choices) /\ NoDup choices /\
      forall ch, In ch choices <->
        Forall2 (fun x u => In x (us_items u)) ch sets /\
        ~ Forall2 (fun x u => is_least x (us_items u)) ch sets.
Proof.
  intros ud s sets Hp Hb. apply us_flatten_ok; [exact Hp|].
  apply Forall_forall. intros u Hu. apply Forall_forall. intros x Hx. now apply (Hb u).
Qed.
Print Assumptions C04_flatten_enumerates.
Example C04_case : forall ud, exists sets, us_parse ud (lit "[ab][cd]") = Ok sets /\
  us_flatten ud 10 (lit "[ab][cd]") = Ok [lit "bc"; lit "ad"; lit "bd"].
Proof. intros ud. eexists. split; vm_compute; reflexivity. Qed.
(** so the first combination is always missing, and a single string yields nothing *)
Theorem C04_first_missing_refuted : forall ud, us_flatten ud 10 (lit "abc") = Ok [].
Proof. intros ud. vm_compute. reflexivity. Qed.
