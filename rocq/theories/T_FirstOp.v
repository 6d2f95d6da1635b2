(** C62 again, with difflib as it is. *)
From Coq Require Import String Lia Permutation Sorted ZArith QArith Qcanon.
From Verif Require Import Py PyFacts M_UnicodeSets M_Collation M_Tailor M_TailorQ M_Difflib T_Difflib M_Minimise M_Simple T_Tailor4 T_Simple T_Simple2 M_FirstOp.
Local Open Scope nat_scope.
Local Open Scope list_scope.

(** what follows an operation at the start that is not "equal": the end, or equal items *)
Lemma first_opcode {A} (eqb : A -> A -> bool) a b o os : get_opcodes eqb a b = o :: os -> o_tag o = Replace \/ o_tag o = Insert ->
  o_j1 o = 0 /\ 0 < o_j2 o /\ forall x, nth_error b (o_j2 o) = Some x -> exists y, In y a /\ eqb y x = true.
Proof.
  unfold get_opcodes, matching_blocks.
  assert (C : chain eqb a b 0 0 (length a) (length b) (collapse 0 0 0 (blocks eqb a b (S (length a)) 0 (length a) 0 (length b)))).
  { apply collapse_ok; try lia; [intros t T; lia|]. apply blocks_ok; lia. }
  destruct (collapse 0 0 0 _) as [|[[bi bj] k] l]; cbn [app opcodes]; intros H T.
  - destruct (Nat.ltb_spec 0 (length a)), (Nat.ltb_spec 0 (length b)); cbn [andb app Nat.eqb] in H; try discriminate; injection H as <- _; cbn in *; try (now destruct T).
    + repeat split; try lia. intros x X. exfalso. assert (Y : length b < length b) by (apply nth_error_Some; congruence). lia.
    + repeat split; try lia. intros x X. exfalso. assert (Y : length b < length b) by (apply nth_error_Some; congruence). lia.
  - cbn [chain] in C. destruct C as (_ & _ & K & B & _). specialize (B 0 K). rewrite !Nat.add_0_r in B. unfold eqat in B.
    assert (G : forall x, nth_error b bj = Some x -> exists y, In y a /\ eqb y x = true).
    { intros x X. rewrite X in B. destruct (nth_error a bi) as [y|] eqn:Y; [|discriminate]. exists y. split; [eapply nth_error_In; eassumption|exact B]. }
    destruct (Nat.ltb_spec 0 bi), (Nat.ltb_spec 0 bj); cbn [andb app] in H.
    + injection H as <- _. split; [reflexivity|]. split; [assumption|exact G].
    + injection H as <- _. cbn in T. now destruct T.
    + injection H as <- _. split; [reflexivity|]. split; [assumption|exact G].
    + destruct (Nat.eqb_spec k 0); [lia|]. cbn [app] in H. injection H as <- _. cbn in T. now destruct T.
Qed.

(** difflib is as [C62_convert] wants it *)
Theorem C62_difflib : forall d enum, (forall l x, In x (enum l) -> In x l) -> difflib_ok d (py_first_op d enum).
Proof.
  intros d enum En out j1 j2 H. unfold py_first_op in H. destruct (get_opcodes streq (in_list d enum out) out) as [|o os] eqn:E; [discriminate|].
  assert (T : (o_tag o = Replace \/ o_tag o = Insert) /\ j1 = o_j1 o /\ j2 = o_j2 o) by (destruct (o_tag o); try discriminate; injection H as <- <-; auto).
  destruct T as (T & -> & ->). destruct (first_opcode _ _ _ _ _ E T) as (A & B & C). split; [exact A|]. split; [exact B|].
  intros x X. destruct (C x X) as (y & Y & S). apply streq_true in S. subst y. unfold in_list in Y. apply in_isort, En, filter_In in Y. destruct Y as [_ Y]. unfold dmem in Y.
  destruct (dget streq d x) as [v|] eqn:D; [|discriminate]. apply (dget_In streq streq_spec) in D. now apply (in_map fst) in D.
Qed.
(** When nothing is put before another item, the first one is in the table (and matched there). *)
Theorem C62_difflib_none : forall d enum out, (forall l x, In x (enum l) -> In x l) -> out <> [] -> py_first_op d enum out = None -> In (hd [] out) (map fst d).
Proof.
  intros d enum out En Ne H. unfold py_first_op, get_opcodes, matching_blocks in H. set (a := in_list d enum out) in *.
  assert (C : chain streq a out 0 0 (length a) (length out) (collapse 0 0 0 (blocks streq a out (S (length a)) 0 (length a) 0 (length out)))).
  { apply collapse_ok; try lia; [intros t T; lia|]. apply blocks_ok; lia. }
  assert (L : 0 < length out) by (destruct out; [congruence|cbn; lia]).
  destruct (collapse 0 0 0 _) as [|[[bi bj] k] l]; cbn [app opcodes] in H.
  - exfalso. destruct (Nat.ltb_spec 0 (length a)), (Nat.ltb_spec 0 (length out)); cbn [andb app Nat.eqb] in H; try lia; discriminate.
  - cbn [chain] in C. destruct C as (_ & _ & K & B & _). specialize (B 0 K). rewrite !Nat.add_0_r in B. unfold eqat in B.
    destruct (Nat.ltb_spec 0 bj) as [J|J].
    + exfalso. rewrite andb_true_r in H. destruct (Nat.ltb 0 bi); cbn [app] in H; discriminate.
    + assert (bj = 0) by lia. subst bj. destruct (nth_error a bi) as [y|] eqn:Y; [|discriminate]. destruct out as [|x out']; [congruence|]. cbn [nth_error hd] in *. apply streq_true in B. subst y.
      apply nth_error_In in Y. unfold a, in_list in Y. apply in_isort, En, filter_In in Y. destruct Y as [_ Y]. unfold dmem in Y.
      destruct (dget streq d x) as [v|] eqn:D; [|discriminate]. apply (dget_In streq streq_spec) in D. now apply (in_map fst) in D.
Qed.
(** The items of a list of lines sort in the order they are listed: with what difflib does, and whatever the order of a set. *)
Theorem C62_convert_difflib :
  forall ws lower upper d strict enum fuel values items,
    items = map fst (listed ws lower upper strict values) ->
    NoDup items -> ~ In [] items ->
    all_primary Qccompare (Q2Qc 0) (ducetQ d) lower strict values items ->
    In (hd [] items) (map fst d) ->
    (forall x, In x items -> In x (map fst d) -> exists v, dkey Qccompare (Q2Qc 0) (ducetQ d) x = Ok v /\
       (forall j, j < 3 -> nth j v [] <> []) /\ last (nth 0 v []) (Q2Qc 0) <> Q2Qc 0) ->
    (forall l x, In x (enum l) -> In x l) -> length items <= fuel ->
    exists st vs, convertSimpleQ ws lower upper d enum fuel strict [] values = Ok st /\
      Forall2 (item_key Qccompare (Q2Qc 0) (ducetQ d) st) items vs /\
      StronglySorted (fun v v' => sk_lt Qccompare (Q2Qc 0) v (Some v') = Ok true) vs.
Proof.
  intros ws lower upper d strict enum fuel values items I ND NE AP HD WK En HF. unfold convertSimpleQ.
  eapply C62_convert; try eassumption. now apply C62_difflib.
Qed.
(** d a: D comes before a and A, which stay together, so that d is put before a *)
Example C62_difflib_ex :
  match convertSimpleQ ex_space ex_low ex_upp ex_sd (fun l => l) 20 false [] [lit "d"; lit "a"] with
  | Ok st => map (fun p => (fst p, t_base (snd p), t_level (snd p), t_before (snd p))) (ts_elts st)
  | Raise _ => []
  end = [(lit "D", lit "d", 3, 0%N); (lit "A", lit "a", 3, 0%N); (lit "d", lit "a", 1, 1%N)].
Proof. vm_compute. reflexivity. Qed.
