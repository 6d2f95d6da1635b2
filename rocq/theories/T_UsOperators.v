(** Property C100: what becomes of sets within sets and of the operators between them. *)
From Verif Require Import Py PyFacts M_UnicodeSets P_UnicodeSets P_UnicodeSets2 P_UsEscapes T_UnicodeSets.
Open Scope N_scope.

(** * Specification *)

(** characters that stand for themselves *)
Definition plain (c : N) : Prop := ~ spec_syntax c /\ c <> 32.
(** the sets of one-character strings *)
Definition members (r : list pystr) (P : N -> Prop) : Prop :=
  NoDup r /\ forall x, In x r <-> exists c, x = [c] /\ P c.

(** * Proofs *)
Lemma plain_inchars c : plain c -> inchars c us_syntax = false.
Proof. intros [H _]. now apply inchars_false. Qed.
Lemma plain_not c : plain c -> c <> 91 /\ c <> 93 /\ c <> 92 /\ c <> 94 /\ c <> 123 /\ c <> 38 /\ c <> 45 /\ c <> 124 /\ c <> 125 /\ c <> 32.
Proof. intro H. pose proof (plain_inchars c H) as E. apply syntax_false in E. destruct H. repeat split; try tauto. Qed.

Definition set_of (B : pystr) : list pystr := fold_left sadd (map (fun c => [c]) B) [].
Lemma set_of_members B : members (set_of B) (fun c => In c B).
Proof.
  split; [apply fold_sadd_NoDup; constructor|]. intro x. unfold set_of. rewrite in_fold_sadd, in_map_iff. split.
  - intros [[]|(c & <- & H)]. now exists c.
  - intros (c & -> & H). right. now exists c.
Qed.

Lemma nth_skip {A} (s : list A) i l : skipn i s = l -> forall k, nth_error s (i + k) = nth_error l k.
Proof. intros <- k. apply nth_error_skipn. Qed.
Lemma index_skip s i B r : ~ In 93 B -> skipn i s = B ++ 93 :: r -> index_from 93 s i = Ok (i + length B)%nat.
Proof.
  revert i B. induction s as [|x s IH]; intros i B N E; [rewrite skipn_nil in E; destruct B; discriminate|].
  destruct i as [|i].
  - cbn [skipn] in E. destruct B as [|b B]; cbn [app] in E.
    + injection E as -> _. reflexivity.
    + injection E as -> E. cbn [index_from]. replace (b =? 93) with false by (symmetry; apply N.eqb_neq; intros ->; apply N; now left).
      rewrite (IH O B); [reflexivity|intro H; apply N; now right|exact E].
  - cbn [skipn] in E. cbn [index_from]. rewrite (IH i B N E). reflexivity.
Qed.
Lemma close_plain s : ~ In 92 s -> forall fuel e, close_class fuel s e = Ok e.
Proof.
  intros H fuel e. assert (negb (Nat.eqb e 0) && opt_is (nth_error s (e - 1)) 92 && negb (opt_is (char_before2 s e) 92) = false)%bool as E.
  { destruct (opt_is (nth_error s (e - 1)) 92) eqn:E; [|now rewrite andb_false_r].
    exfalso. apply H. apply opt_is_spec in E. eapply nth_error_In. exact E. }
  destruct fuel; cbn [close_class]; now rewrite E.
Qed.

Lemma class_stop g k i e nx ac : (e <= i)%nat -> class_loop g k i e nx ac = Ok (i, nx, ac).
Proof. intro H. destruct k; cbn [class_loop]; now rewrite (proj2 (Nat.ltb_ge i e) H). Qed.
Lemma class_step g k i e nx ac i' it nx' : (i < e)%nat -> g i nx e = Ok (i', it, nx') ->
  class_loop g (S k) i e nx ac = class_loop g k i' e nx' (match it with Some u => sunion ac (us_items u) | None => ac end).
Proof. intros H E. cbn [class_loop]. rewrite (proj2 (Nat.ltb_lt i e) H), E. reflexivity. Qed.
Section Plain.
  Variable ud : N -> bool.
  Definition cs (B : pystr) : list citem := map (fun c => C1 (CL c)) B.
  Lemma cs_text B : concat (map citext (cs B)) = B.
  Proof. induction B as [|c B IH]; [reflexivity|]. change (c :: concat (map citext (cs B)) = c :: B). now rewrite IH. Qed.
  Lemma cs_val B : map cival (cs B) = map (fun c => [c]) B.
  Proof. unfold cs. rewrite map_map. reflexivity. Qed.
  Lemma cs_ok B : Forall plain B -> Forall (citem_ok ud) (cs B).
  Proof. intro H. apply Forall_map. eapply Forall_impl; [|exact H]. intros c Hc. now apply plain_inchars. Qed.
  (** a class of plain characters, wherever it stands *)
  Lemma parse_class f s ind last end_ (neg : bool) B rest :
    ~ In 92 s -> Forall plain B -> ind <> end_ ->
    skipn ind s = 91 :: (if neg then [94] else []) ++ B ++ 93 :: rest ->
    parseitem ud (S (S f)) s ind last end_ =
      Ok (ind + length (if neg then [94] else []) + length B + 2, last, Some (USet (set_of B) neg true false))%nat.
  Proof.
    intros H92 HB Hne E. pose proof (nth_skip s ind _ E) as Hn.
    remember (S f) as f1 eqn:Ef. cbn [parseitem]. apply Nat.eqb_neq in Hne as ->.
    pose proof (Hn 0%nat) as H0. rewrite Nat.add_0_r in H0. rewrite H0. cbn [nth_error]. change (91 =? 91) with true. cbn iota.
    set (ind1 := (ind + 1 + length (if neg then [94] else []))%nat).
    assert (skipn ind1 s = B ++ 93 :: rest) as E1.
    { unfold ind1. rewrite <- Nat.add_assoc, (Nat.add_comm ind), <- skipn_skipn, E. destruct neg; reflexivity. }
    assert (exists c1, nth_error ((if neg then [94] else []) ++ B ++ 93 :: rest) 0 = Some c1 /\ (c1 =? 94) = neg) as (c1 & Hc1 & Hneg).
    { destruct neg; [now exists 94|]. cbn [app]. destruct B as [|b B]; [now exists 93|]. exists b. split; [reflexivity|].
      apply N.eqb_neq. apply Forall_inv in HB. now apply plain_not in HB. }
    pose proof (eq_trans (Hn 1%nat) Hc1) as H1. rewrite H1, Hneg. cbn zeta.
    replace (if neg then (ind + 2)%nat else (ind + 1)%nat) with ind1 by (unfold ind1; destruct neg; cbn; lia).
    rewrite (index_skip s ind1 B rest); [|intro Hin; rewrite Forall_forall in HB; apply HB in Hin; now apply plain_not in Hin|exact E1].
    cbn [bind]. rewrite close_plain by assumption. cbn [bind].
    assert (length B <= length s)%nat as HL.
    { pose proof (f_equal (@length N) E1) as L. rewrite skipn_length, app_length in L. cbn [length] in L. lia. }
    destruct (class_loop_citems ud f s (ind1 + length B)%nat (cs B) (length s) ind1 None [] (93 :: rest)) as (item' & acc' & HLp & HA).
    - now apply cs_ok.
    - rewrite cs_text. exact E1.
    - now rewrite cs_text.
    - unfold cs. rewrite map_length. exact HL.
    - subst f1. rewrite HLp. cbn [bind]. fold (addopt acc' item'). rewrite HA. cbn [addopt]. rewrite cs_val.
      unfold set_of. f_equal. f_equal. f_equal. unfold ind1. lia.
  Qed.
  Lemma parse_plain f s ind last e c :
    nth_error s ind = Some c -> ind <> e -> plain c ->
    parseitem ud (S f) s ind last e = Ok (ind + 1, last, Some (us_single [c]))%nat.
  Proof.
    intros Hn Hi Hc. apply plain_not in Hc. cbn [parseitem].
    apply Nat.eqb_neq in Hi as ->. rewrite Hn.
    replace (c =? 91) with false by (symmetry; apply N.eqb_neq; tauto).
    replace (c =? 123) with false by (symmetry; apply N.eqb_neq; tauto).
    replace (c =? 92) with false by (symmetry; apply N.eqb_neq; tauto).
    replace (inchars c (lit "|&-")) with false; [reflexivity|].
    symmetry. apply inchars_false. cbn. intuition congruence.
  Qed.

  Lemma nosp_id s : ~ In 92 s -> ~ In 32 s -> us_parse ud s = parse_loop ud (length s) s 0 [].
  Proof.
    intros H92 H32. unfold us_parse. rewrite hexescre_id by assumption. cbn [bind]. rewrite hexgre_id by assumption. cbn [bind].
    rewrite filter_id; [reflexivity|]. intros c Hc. apply negb_true_iff, N.eqb_neq. intros ->. contradiction.
  Qed.
  Lemma loop_end k s a : parse_loop ud k s (length s) a = Ok a.
  Proof. destruct k; cbn [parse_loop]; rewrite Nat.ltb_irrefl; reflexivity. Qed.
  Lemma loop_step k s i a i' l u : (i < length s)%nat -> parseitem ud (length s) s i None (length s) = Ok (i', l, Some u) ->
    parse_loop ud (S k) s i a = parse_loop ud k s i' (if truthy (Some u) then a ++ [u] else a).
  Proof. intros Hi E. cbn [parse_loop]. apply Nat.ltb_lt in Hi as ->. rewrite E. reflexivity. Qed.
  Lemma loop_raise k s i a ex : (i < length s)%nat -> parseitem ud (length s) s i None (length s) = Raise ex ->
    parse_loop ud (S k) s i a = Raise ex.
  Proof. intros Hi E. cbn [parse_loop]. apply Nat.ltb_lt in Hi as ->. rewrite E. reflexivity. Qed.

  (** a class whose body is one character, an operator and one more item *)
  Lemma parse_operator f s x op i' it :
    ~ In 92 s -> nth_error s 0 = Some 91 -> nth_error s 1 = Some x -> nth_error s 2 = Some op -> plain x -> In op (lit "|&-") ->
    forall e, index_from 93 s 1 = Ok e -> (2 < e)%nat -> (e <= i')%nat -> (2 < length s)%nat ->
    parseitem ud (S f) s 3 None e = Ok (i', None, Some it) ->
    parseitem ud (S (S (S f))) s 0 None (length s) =
    do (l', r) <- us_binop op (us_single [x]) (Some it);
    Ok (i' + 1, None, Some (USet (sunion (match l' with Some u => sunion [] (us_items u) | None => [] end) (us_items r)) false true false))%nat.
  Proof.
    intros H92 H0 H1 H2 Hx Ho e He L2 Li Ls HI. remember (S (S f)) as f2 eqn:Ef. cbn [parseitem].
    replace (0 =? length s)%nat with false by (destruct (length s); [lia|reflexivity]).
    rewrite H0. change (91 =? 91) with true. cbn iota. change (0 + 1)%nat with 1%nat. rewrite H1.
    replace (x =? 94) with false by (symmetry; apply N.eqb_neq; now apply plain_not in Hx). cbn zeta iota.
    rewrite He. cbn [bind]. rewrite close_plain by assumption. cbn [bind].
    destruct (length s) as [|[|n]] eqn:El; [lia|lia|].
    cbn [class_loop]. rewrite (proj2 (Nat.ltb_lt 1 e)) by lia. rewrite Ef.
    rewrite (parse_plain (S f) s 1 None e x H1) by (assumption || lia). cbn [bind].
    change (1 + 1)%nat with 2%nat. rewrite (proj2 (Nat.ltb_lt 2 e)) by lia.
    remember (S f) as f1 eqn:Ef1. cbn [parseitem]. replace (2 =? e)%nat with false by (symmetry; apply Nat.eqb_neq; lia).
    rewrite H2. replace (op =? 91) with false by (symmetry; apply N.eqb_neq; cbn in Ho; intuition congruence).
    replace (inchars op (lit "|&-")) with true.
    2:{ symmetry. apply not_false_is_true. intro F. apply inchars_false in F. now apply F. }
    cbn iota. change (2 + 1)%nat with 3%nat. rewrite HI. cbn [bind].
    destruct (us_binop op (us_single [x]) (Some it)) as [[l' r]|ex]; cbn [bind]; [|reflexivity].
    assert (forall k i2 nx ac, (e <= i2)%nat -> class_loop (parseitem ud (S f1) s) k i2 e nx ac = Ok (i2, nx, ac)) as Stop.
    { intros [|k] i2 nx ac Hk; cbn [class_loop]; rewrite (proj2 (Nat.ltb_ge i2 e)) by lia; reflexivity. }
    rewrite Stop by assumption. cbn [bind]. destruct l'; reflexivity.
  Qed.
End Plain.

Lemma plain_no B c : Forall plain B -> In c B -> plain c.
Proof. rewrite Forall_forall. auto. Qed.
Lemma op_not op : In op (lit "|&-") -> op <> 92 /\ op <> 32 /\ op <> 93 /\ op <> 91.
Proof. cbn. intros [<-|[<-|[<-|[]]]]; repeat split; discriminate. Qed.
Definition safe (c : N) : Prop := c <> 92 /\ c <> 32.
Lemma safe_no s : Forall safe s -> ~ In 92 s /\ ~ In 32 s.
Proof. rewrite Forall_forall. split; intro I; apply H in I; destruct I; congruence. Qed.
Lemma safe_plain B : Forall plain B -> Forall safe B.
Proof. intro HB. eapply Forall_impl; [|exact HB]. intros c H. apply plain_not in H. unfold safe. tauto. Qed.
Ltac safe := repeat (apply Forall_app; split); auto using safe_plain; repeat constructor; unfold safe; try split; try discriminate; auto.
Lemma truthy_set B neg : B <> [] -> truthy (Some (USet (set_of B) neg true false)) = true.
Proof.
  intro N. unfold truthy. cbn [us_items]. destruct (set_of B) eqn:E; [|reflexivity]. exfalso. destruct B as [|c B]; [contradiction|].
  destruct (set_of_members (c :: B)) as [_ H]. specialize (H [c]). rewrite E in H. apply H. exists c. split; [reflexivity|now left].
Qed.

Section Claims.
  Variable ud : N -> bool.

  (** a class with an operator and an item [y], the last character being position [length s - 1] *)
  Lemma us2list_operator s x op i' it n :
    length s = S (S (S (S n))) -> ~ In 92 s -> ~ In 32 s ->
    nth_error s 0 = Some 91 -> nth_error s 1 = Some x -> nth_error s 2 = Some op -> plain x -> In op (lit "|&-") ->
    forall e, index_from 93 s 1 = Ok e -> (2 < e)%nat -> (e <= i')%nat -> (i' + 1 = length s)%nat ->
    parseitem ud (S (S n)) s 3 None e = Ok (i', None, Some it) ->
    us2list ud s =
    do (l', r) <- us_binop op (us_single [x]) (Some it);
    Ok (sunion (match l' with Some u => sunion [] (us_items u) | None => [] end) (us_items r)).
  Proof.
    intros HL H92 H32 H0 H1 H2 Hx Ho e He L2 Li Le HI. unfold us2list. rewrite nosp_id by assumption.
    pose proof (parse_operator ud (S n) s x op i' it H92 H0 H1 H2 Hx Ho e He L2 Li ltac:(lia) HI) as P.
    rewrite <- HL in P. assert (0 < length s)%nat as Hpos by lia. rewrite HL at 1.
    destruct (us_binop op (us_single [x]) (Some it)) as [[l' r]|ex]; cbn [bind] in P |- *;
      [rewrite (loop_step ud _ s 0 [] _ _ _ Hpos P)|now rewrite (loop_raise ud _ s 0 [] ex Hpos P)].
    rewrite Le, loop_end. cbn [bind app].
    match goal with |- context[truthy (Some ?u)] => unfold truthy; cbn [us_items]; destruct (sunion _ (us_items r)) eqn:E end; cbn [app us_items];
      reflexivity.
  Qed.

  (** * Theorems *)
  (** Of two sets within a set only the first is seen, whatever stands between them; the second is
      taken for the next element of a sequence, and the last bracket for a character. *)
  Theorem C100_nested_refuted (B C : pystr) (op : N) :
    Forall plain B -> Forall plain C -> B <> [] -> C <> [] -> In op (lit "|&-") ->
    let s := lit "[[" ++ B ++ lit "]" ++ [op] ++ lit "[" ++ C ++ lit "]]" in
    (exists r, us2list ud s = Ok r /\ members r (fun c => In c B)) /\
    (exists u1 u2 u3, us_parse ud s = Ok [u1; u2; u3] /\
       members (us_items u1) (fun c => In c B) /\ members (us_items u2) (fun c => In c C) /\ us_items u3 = [lit "]"]).
  Proof.
    intros HB HC NB NC Ho s.
    assert (~ In 92 s /\ ~ In 32 s) as [H92 H32].
    { apply op_not in Ho. apply safe_no. unfold s. safe; tauto. }
    assert (us_parse ud s = Ok [USet (set_of B) false true false; USet (set_of C) false true false; us_single [93]]) as E.
    { rewrite nosp_id by assumption.
      assert (length s = S (S (S (S (3 + length B + length C)))))%nat as HL by (unfold s; rewrite !app_length; cbn; lia).
      assert (skipn 1 s = 91 :: B ++ 93 :: op :: 91 :: C ++ [93; 93]) as E1 by reflexivity.
      assert (skipn (4 + length B) s = 91 :: C ++ [93; 93]) as E2.
      { replace (4 + length B)%nat with (3 + length B + 1)%nat by lia. rewrite <- skipn_skipn, E1.
        change (91 :: B ++ 93 :: op :: 91 :: C ++ [93; 93]) with ((91 :: B) ++ 93 :: op :: 91 :: C ++ [93; 93]).
        rewrite skipn_app. cbn [length]. rewrite skipn_all2 by (cbn; lia). replace (3 + length B - S (length B))%nat with 2%nat by lia. reflexivity. }
      assert (nth_error s (6 + length B + length C) = Some 93) as E3.
      { replace (6 + length B + length C)%nat with ((4 + length B) + (2 + length C))%nat by lia. rewrite (nth_skip s _ _ E2).
        change (nth_error (C ++ [93; 93]) (S (length C)) = Some 93). rewrite nth_error_app2 by lia. now replace (S (length C) - length C)%nat with 1%nat by lia. }
      assert (parseitem ud (length s) s 0 None (length s) = Ok (4 + length B, None, Some (USet (set_of B) false true false))%nat) as P1.
      { rewrite HL at 1. remember (S (S (S (3 + length B + length C)))) as f1 eqn:Ef. cbn [parseitem].
        replace (0 =? length s)%nat with false by (rewrite HL; reflexivity).
        change (nth_error s 0) with (Some 91). change (nth_error s (0 + 1)) with (Some 91). cbn iota zeta.
        change (91 =? 91) with true. change (91 =? 94) with false. cbn iota. change (0 + 1)%nat with 1%nat.
        rewrite (index_skip s 1 (91 :: B) (op :: 91 :: C ++ [93; 93])); [|intros [|Hin]; [discriminate|apply (plain_no _ _ HB), plain_not in Hin; tauto]|exact E1].
        cbn [bind]. rewrite close_plain by assumption. cbn [bind].
        assert (class_loop (parseitem ud f1 s) (length s) 1 (1 + length (91 :: B)) None [] =
                Ok (3 + length B, Some (USet (set_of B) false true false), [])%nat) as ->.
        { rewrite HL. erewrite class_step; [|cbn; lia|].
          2:{ rewrite Ef. rewrite (parse_class ud _ s 1 None _ false B (op :: 91 :: C ++ [93; 93])); [reflexivity|assumption|assumption|cbn; lia|exact E1]. }
          rewrite class_stop by (cbn; lia). f_equal. f_equal. f_equal. cbn [length]. lia. }
        cbn [bind us_items]. replace (sunion [] (set_of B)) with (set_of B).
        2:{ unfold sunion. rewrite fold_sadd_fresh; [reflexivity|apply set_of_members]. }
        f_equal. f_equal. f_equal. lia. }
      rewrite HL at 1. rewrite (loop_step ud _ s 0 [] _ _ _ ltac:(lia) P1), truthy_set by assumption.
      assert (parseitem ud (length s) s (4 + length B) None (length s) = Ok (6 + length B + length C, None, Some (USet (set_of C) false true false))%nat) as P2.
      { rewrite HL at 1. rewrite (parse_class ud _ s _ None _ false C [93]); [|assumption|assumption|lia|exact E2].
        f_equal. f_equal. f_equal. cbn [length]. lia. }
      rewrite (loop_step ud _ s (4 + length B) _ _ _ _ ltac:(lia) P2), truthy_set by assumption.
      assert (parseitem ud (length s) s (6 + length B + length C) None (length s) = Ok (length s, None, Some (us_single [93]))) as P3.
      { rewrite HL at 1. cbn [parseitem]. rewrite (proj2 (Nat.eqb_neq _ _)) by lia. rewrite E3.
        change (93 =? 91) with false. change (93 =? 123) with false. change (93 =? 92) with false. change (inchars 93 (lit "|&-")) with false. cbn iota.
        f_equal. f_equal. f_equal. lia. }
      rewrite (loop_step ud _ s (6 + length B + length C) _ _ _ _ ltac:(lia) P3), loop_end. reflexivity. }
    split.
    - exists (set_of B). split; [unfold us2list; rewrite E; reflexivity|apply set_of_members].
    - do 3 eexists. split; [exact E|]. repeat split; try apply set_of_members.
  Qed.

  (** A negated set is read as the set. *)
  Theorem C100_negated_refuted (B : pystr) :
    Forall plain B -> B <> [] ->
    exists r, us2list ud (lit "[^" ++ B ++ lit "]") = Ok r /\ members r (fun c => In c B).
  Proof.
    intros HB NB. set (s := lit "[^" ++ B ++ lit "]").
    assert (~ In 92 s /\ ~ In 32 s) as [H92 H32].
    { apply safe_no. unfold s. safe. }
    exists (set_of B). split; [|apply set_of_members]. unfold us2list. rewrite nosp_id by assumption.
    assert (length s = S (S (S (length B)))) as HL by (unfold s; rewrite !app_length; cbn; lia).
    assert (parseitem ud (length s) s 0 None (length s) = Ok (length s, None, Some (USet (set_of B) true true false))) as P.
    { rewrite HL at 1. rewrite (parse_class ud _ s 0 None _ true B []); [|assumption|assumption|lia|reflexivity].
      f_equal. f_equal. f_equal. cbn [length]. lia. }
    rewrite HL at 1. rewrite (loop_step ud _ s 0 [] _ _ _ ltac:(lia) P), truthy_set, loop_end by assumption. reflexivity.
  Qed.

  Lemma us2list_class s x op (neg : bool) B :
    plain x -> Forall plain B -> In op (lit "|&-") ->
    s = lit "[" ++ [x; op] ++ lit "[" ++ (if neg then lit "^" else []) ++ B ++ lit "]]" ->
    us2list ud s =
    do (l', r) <- us_binop op (us_single [x]) (Some (USet (set_of B) neg true false));
    Ok (sunion (match l' with Some u => sunion [] (us_items u) | None => [] end) (us_items r)).
  Proof.
    intros Hx HB Ho Es. pose proof (plain_not _ Hx) as Hx'. pose proof (op_not _ Ho) as Ho'.
    assert (~ In 92 s /\ ~ In 32 s) as [H92 H32].
    { apply safe_no. subst s. destruct neg; safe; tauto. }
    assert (length s = S (S (S (S (2 + length (if neg then [94] else []) + length B))))) as HL by (subst s; rewrite !app_length; destruct neg; cbn; lia).
    assert (skipn 3 s = 91 :: (if neg then [94] else []) ++ B ++ 93 :: [93]) as E3 by (subst s; reflexivity).
    apply (us2list_operator s x op (length s - 1) (USet (set_of B) neg true false) _ HL) with (e := S (length ([x; op; 91] ++ (if neg then [94] else []) ++ B)));
      try (subst s; reflexivity); try assumption.
    - rewrite (index_skip s 1 ([x; op; 91] ++ (if neg then [94] else []) ++ B) [93]).
      + reflexivity.
      + rewrite !in_app_iff. intros [[H|[H|[H|[]]]]|[H|H]]; try tauto; try discriminate; try (destruct neg; cbn in H; intuition discriminate);
          pose proof (plain_not _ (plain_no _ _ HB H)); tauto.
      + subst s. cbn [app lit]. rewrite <- !app_assoc. reflexivity.
    - rewrite !app_length. destruct neg; cbn; lia.
    - rewrite HL, !app_length. destruct neg; cbn; lia.
    - lia.
    - rewrite (parse_class ud _ s 3 None _ neg B [93]); [|assumption|assumption|rewrite !app_length; destruct neg; cbn; lia|exact E3].
      clear - HL. f_equal. f_equal. f_equal. rewrite HL. destruct neg; cbn [length]; lia.
  Qed.
  Lemma us2list_char s x op y :
    plain x -> plain y -> In op (lit "|&-") -> s = lit "[" ++ [x; op; y] ++ lit "]" ->
    us2list ud s =
    do (l', r) <- us_binop op (us_single [x]) (Some (us_single [y]));
    Ok (sunion (match l' with Some u => sunion [] (us_items u) | None => [] end) (us_items r)).
  Proof.
    intros Hx Hy Ho ->. pose proof (plain_not _ Hx). pose proof (plain_not _ Hy). pose proof (op_not _ Ho).
    apply (us2list_operator _ x op 4%nat (us_single [y]) 1%nat) with (e := 4%nat); try reflexivity; try assumption; try lia;
      try (cbn; intuition congruence).
    - apply (index_skip _ 1 [x; op; y] []); [|reflexivity]. cbn. intuition congruence.
    - apply (parse_plain ud); [reflexivity|lia|assumption].
  Qed.

  Lemma set_of_mem B c : smem [c] (set_of B) = true <-> In c B.
  Proof.
    rewrite smem_spec. destruct (set_of_members B) as [_ H]. rewrite H. split; [intros (d & [= ->] & I); exact I|].
    intro I. now exists c.
  Qed.
  Lemma sunion_nil l : NoDup l -> sunion [] l = l.
  Proof. intro H. unfold sunion. now rewrite fold_sadd_fresh. Qed.

  (** Between two characters | is the union and & the intersection. *)
  Theorem C100_characters (x y : N) :
    plain x -> plain y ->
    (exists r, us2list ud (lit "[" ++ [x] ++ lit "|" ++ [y] ++ lit "]") = Ok r /\ members r (fun c => c = x \/ c = y)) /\
    (exists r, us2list ud (lit "[" ++ [x] ++ lit "&" ++ [y] ++ lit "]") = Ok r /\ members r (fun c => c = x /\ c = y)).
  Proof.
    intros Hx Hy. split; eexists.
    - split; [rewrite (us2list_char _ x 124 y Hx Hy); [reflexivity|cbn; tauto|reflexivity]|].
      split; [apply fold_sadd_NoDup; constructor|]. intro z. unfold sunion. rewrite in_fold_sadd.
      cbn [us_items us_plainset us_single]. rewrite in_fold_sadd. cbn. split.
      + intros [[]|[[<-|[]]|[<-|[]]]]; eauto.
      + intros (c & -> & [->| ->]); tauto.
    - split; [rewrite (us2list_char _ x 38 y Hx Hy); [reflexivity|cbn; tauto|reflexivity]|].
      split; [apply fold_sadd_NoDup; constructor|]. intro z. unfold sunion. rewrite in_fold_sadd.
      unfold us_plainset, us_single, sinter. cbn [us_items]. rewrite filter_In, smem_spec. cbn. split.
      + intros [[]|[[<-|[]] [E|[]]]]. injection E as ->. eauto.
      + intros (c & -> & -> & E). subst. tauto.
  Qed.

  (** Between a character and a set that ends the class | is the union and & the intersection, also
      with a negated set. *)
  Theorem C100_sets (x : N) (B : pystr) :
    plain x -> Forall plain B -> B <> [] ->
    (exists r, us2list ud (lit "[" ++ [x] ++ lit "|[" ++ B ++ lit "]]") = Ok r /\ members r (fun c => c = x \/ In c B)) /\
    (exists r, us2list ud (lit "[" ++ [x] ++ lit "&[" ++ B ++ lit "]]") = Ok r /\ members r (fun c => c = x /\ In c B)) /\
    (exists r, us2list ud (lit "[" ++ [x] ++ lit "&[^" ++ B ++ lit "]]") = Ok r /\ members r (fun c => c = x /\ ~ In c B)).
  Proof.
    intros Hx HB NB. pose proof (truthy_set B false NB) as T0. pose proof (truthy_set B true NB) as T1.
    split; [|split].
    - eexists. split; [rewrite (us2list_class _ x 124 false B Hx HB); [|cbn; tauto|reflexivity]; unfold us_binop; rewrite T0; reflexivity|].
      split; [apply fold_sadd_NoDup; constructor|]. intro z. unfold sunion. rewrite in_fold_sadd.
      unfold us_plainset, us_single, sunion. cbn [us_items]. rewrite in_fold_sadd. destruct (set_of_members B) as [_ H]. rewrite H. cbn. split.
      + intros [[]|[(c & -> & I)|[<-|[]]]]; eauto.
      + intros (c & -> & [->|I]); [tauto|]. right. left. eauto.
    - eexists. split; [rewrite (us2list_class _ x 38 false B Hx HB); [|cbn; tauto|reflexivity]; unfold us_binop; rewrite T0; reflexivity|].
      split; [apply fold_sadd_NoDup; constructor|]. intro z. unfold sunion. rewrite in_fold_sadd.
      unfold us_plainset, us_single, sinter. cbn [us_items]. rewrite filter_In, smem_spec. destruct (set_of_members B) as [_ H]. rewrite H. cbn. split.
      + intros [[]|[(c & -> & I) [E|[]]]]. injection E as ->. eauto.
      + intros (c & -> & -> & I). right. split; [eauto|now left].
    - eexists. split; [rewrite (us2list_class _ x 38 true B Hx HB); [|cbn; tauto|reflexivity]; unfold us_binop; rewrite T1; reflexivity|].
      split; [apply fold_sadd_NoDup; constructor|]. intro z. unfold sunion. rewrite in_fold_sadd.
      unfold us_plainset, us_single, sdiff. cbn [us_items]. rewrite filter_In, negb_true_iff. split.
      + intros [[]|[[<-|[]] E]]. exists x. repeat split. intro I. apply set_of_mem in I. congruence.
      + intros (c & -> & -> & I). right. split; [now left|]. apply not_true_is_false. now rewrite set_of_mem.
  Qed.

  (** A character before | and a negated set is an error. *)
  Theorem C100_or_negated_refuted (x : N) (B : pystr) :
    plain x -> Forall plain B -> B <> [] ->
    us2list ud (lit "[" ++ [x] ++ lit "|[^" ++ B ++ lit "]]") = Raise AttributeError.
  Proof.
    intros Hx HB NB. rewrite (us2list_class _ x 124 true B Hx HB); [|cbn; tauto|reflexivity].
    unfold us_binop. rewrite (truthy_set B true NB). reflexivity.
  Qed.

  (** A set after - is a range when it has one member and is lost otherwise. *)
  Theorem C100_minus_refuted (x : N) (B : pystr) :
    plain x -> Forall plain B -> NoDup B ->
    (forall b, B = [b] ->
       exists r, us2list ud (lit "[" ++ [x] ++ lit "-[" ++ B ++ lit "]]") = Ok r /\ members r (fun c => x <= c <= b)) /\
    (length B <> 1%nat ->
       exists r, us2list ud (lit "[" ++ [x] ++ lit "-[" ++ B ++ lit "]]") = Ok r /\ members r (fun c => c = x \/ c = 45)).
  Proof.
    intros Hx HB ND. split.
    - intros b ->. eexists. split; [rewrite (us2list_class _ x 45 false [b] Hx HB); [|cbn; tauto|reflexivity]; reflexivity|].
      split; [apply fold_sadd_NoDup; constructor|]. intro z. unfold sunion. rewrite in_fold_sadd. cbn [us_items].
      unfold char_range. rewrite in_map_iff. split.
      + intros [[]|(k & <- & I)]. apply in_seq in I. eexists. split; [reflexivity|]. lia.
      + intros (c & -> & L1 & L2). right. exists (N.to_nat (c - x)). split; [f_equal; lia|]. apply in_seq. lia.
    - intro L. rewrite (us2list_class _ x 45 false B Hx HB); [|cbn; tauto|reflexivity].
      assert (us_binop 45 (us_single [x]) (Some (USet (set_of B) false true false)) = Ok (Some (us_single [x]), us_single [45])) as ->.
      { unfold us_binop. assert (set_of B = map (fun c => [c]) B) as E.
        { unfold set_of. apply fold_sadd_fresh. cbn [app]. apply FinFun.Injective_map_NoDup; [|exact ND]. intros c d [= ->]. reflexivity. }
        rewrite E. destruct B as [|b [|b' B]]; [reflexivity|cbn in L; lia|reflexivity]. }
      cbn [bind]. eexists. split; [reflexivity|]. split; [apply fold_sadd_NoDup, fold_sadd_NoDup; constructor|].
      intro z. unfold sunion. rewrite !in_fold_sadd. cbn. split.
      + intros [[[]|[<-|[]]]|[<-|[]]]; eauto.
      + intros (c & -> & [->| ->]); tauto.
  Qed.
End Claims.

(** [[abc]-[b]] is a, b and c *)
Example C100_nested_refuted_ex ud : us2list ud (lit "[[abc]-[b]]") = Ok [lit "a"; lit "b"; lit "c"].
Proof. vm_compute. reflexivity. Qed.
Example C100_negated_refuted_ex ud : us2list ud (lit "[^ab]") = Ok [lit "a"; lit "b"].
Proof. vm_compute. reflexivity. Qed.
Example C100_characters_ex ud :
  (us2list ud (lit "[a|b]"), us2list ud (lit "[a&b]"), us2list ud (lit "[a&a]")) = (Ok [lit "b"; lit "a"], Ok [], Ok [lit "a"]).
Proof. vm_compute. reflexivity. Qed.
Example C100_sets_ex ud :
  (us2list ud (lit "[a|[bc]]"), us2list ud (lit "[b&[bc]]"), us2list ud (lit "[a&[^bc]]"), us2list ud (lit "[b&[^bc]]"))
  = (Ok [lit "b"; lit "c"; lit "a"], Ok [lit "b"], Ok [lit "a"], Ok []).
Proof. vm_compute. reflexivity. Qed.
Example C100_or_negated_refuted_ex ud : us2list ud (lit "[a|[^bc]]") = Raise AttributeError.
Proof. vm_compute. reflexivity. Qed.
Example C100_minus_refuted_ex ud :
  (us2list ud (lit "[a-[c]]"), us2list ud (lit "[a-[bc]]")) = (Ok [lit "a"; lit "b"; lit "c"], Ok [lit "a"; lit "-"]).
Proof. vm_compute. reflexivity. Qed.
(** letters are plain *)
Example C100_plain_ex : Forall plain (lit "abc") /\ In 45 (lit "|&-").
Proof. split; [|cbn; tauto]. cbn. repeat constructor; cbv; intuition congruence. Qed.
