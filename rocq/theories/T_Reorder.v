(** C56: the order in which the characters of a reordered text stand. *)
From Coq Require Import String Permutation Sorted.
From Verif Require Import Py PyFacts M_UnicodeSets M_Flatten M_Keyboard T_Keyboard T_Keyboard2.
Local Open Scope list_scope.
Local Open Scope nat_scope.

(** * Specification *)
(** characters with their orders, sorted by order; characters of the same order stay as they stand *)
Definition order (r : list (N * Z)) : pystr := map fst (isort (fun a b => Z.leb (snd a) (snd b)) r).
(** runs: characters of order 0, the bases, and then the marks up to the next base *)
Inductive runs : list (list (N * Z)) -> Prop :=
| runs_nil : runs []
| runs_bases bs : bs <> [] -> Forall (fun x => snd x = 0%Z) bs -> runs [bs]
| runs_marks bs ms rs : bs <> [] -> Forall (fun x => snd x = 0%Z) bs -> ms <> [] -> Forall (fun x => snd x <> 0%Z) ms ->
    runs rs -> runs ((bs ++ ms) :: rs).

(** * Proof *)
Section Isort.
  Context {A B : Type} (la : A -> A -> bool) (lb : B -> B -> bool) (g : A -> B).
  Lemma insert_map x l : Forall (fun y => la x y = lb (g x) (g y)) l -> map g (insert la x l) = insert lb (g x) (map g l).
  Proof.
    induction 1 as [|y l H F IH]; [reflexivity|]. cbn [insert map]. rewrite <- H. destruct (la x y); cbn [map]; [reflexivity|now rewrite IH].
  Qed.
  Lemma isort_map l : StronglySorted (fun x y => la x y = lb (g x) (g y)) l -> map g (isort la l) = isort lb (map g l).
  Proof.
    induction 1 as [|x l S IH F]; [reflexivity|]. cbn [isort map]. rewrite insert_map; [now rewrite IH|].
    eapply Permutation_Forall; [apply isort_perm|exact F].
  Qed.
End Isort.
Lemma skipn_app_exact {A} (a b : list A) : skipn (length a) (a ++ b) = b.
Proof. induction a; [reflexivity|assumption]. Qed.
Fixpoint keys_of (p : nat) (zs : list Z) : list sortkey :=
  match zs with [] => [] | z :: zs' => mkKey z p 0 p :: keys_of (S p) zs' end.
Lemma keys_of_app a : forall p b, keys_of p (a ++ b) = keys_of p a ++ keys_of (p + length a) b.
Proof.
  induction a as [|z a IH]; intros p b; cbn [app keys_of length]; [now rewrite Nat.add_0_r|].
  rewrite IH. cbn [app]. do 3 f_equal. lia.
Qed.
Lemma keys_of_from zs : forall p k, In k (keys_of p zs) -> p <= sk_index k.
Proof.
  induction zs as [|z zs IH]; intros p k I; [contradiction|]. cbn [keys_of] in I. destruct I as [<-|I]; [cbn; lia|]. apply IH in I. lia.
Qed.
Lemma sort_keys r : forall p, map fst (isort (fun a b => key_leb (snd a) (snd b)) (combine (map fst r) (keys_of p (map snd r)))) = order r.
Proof.
  intro p. set (g := fun x : N * sortkey => (fst x, sk_primary (snd x))).
  assert (forall r p, map g (combine (map fst r) (keys_of p (map snd r))) = r) as G.
  { clear. induction r as [|[x z] r IH]; intro p; [reflexivity|]. cbn [map fst snd keys_of combine]. now rewrite IH. }
  unfold order. set (l := combine (map fst r) (keys_of p (map snd r))).
  assert (map g (isort (fun a b => key_leb (snd a) (snd b)) l) = isort (fun a b => Z.leb (snd a) (snd b)) (map g l)) as Q.
  2:{ unfold l in Q at 2. rewrite G in Q. rewrite <- Q, map_map. reflexivity. }
  apply isort_map. unfold l, g.
  clear. revert p. induction r as [|[x z] r IH]; intro p; [constructor|]. cbn [map fst snd keys_of combine]. constructor; [apply IH|].
    apply Forall_forall. intros [y k] I. apply in_combine_r in I. apply keys_of_from in I. unfold key_leb, key_cmp, Z.leb. cbn [snd fst sk_primary sk_index].
    destruct (Z.compare z (sk_primary k)); try reflexivity. rewrite (proj2 (Nat.compare_lt_iff p (sk_index k))) by lia. reflexivity.
Qed.
(** what is done, the run so far and whether it has bases only *)
Definition fstate : Type := pystr * list (N * Z) * bool.
Definition feed (st : fstate) (x : N * Z) : fstate :=
  let '(d, cur, init) := st in
  if Z.eqb (snd x) 0 then if init then (d, cur ++ [x], true) else (d ++ order cur, [x], true)
  else (d, cur ++ [x], false).
Definition total (st : fstate) : pystr := let '(d, cur, _) := st in d ++ order cur.
Lemma feed_bases bs : forall d cur, Forall (fun x => snd x = 0%Z) bs -> fold_left feed bs (d, cur, true) = (d, cur ++ bs, true).
Proof.
  induction bs as [|b bs IH]; intros d cur F; [now rewrite app_nil_r|]. inversion F as [|? ? E F']; subst. cbn [fold_left feed]. rewrite E. cbn [Z.eqb].
  rewrite IH, <- app_assoc by exact F'. reflexivity.
Qed.
Lemma feed_marks ms : forall d cur init, ms <> [] -> Forall (fun x => snd x <> 0%Z) ms -> fold_left feed ms (d, cur, init) = (d, cur ++ ms, false).
Proof.
  induction ms as [|b ms IH]; intros d cur init N F; [congruence|]. inversion F as [|? ? E F']; subst. cbn [fold_left feed].
  rewrite (proj2 (Z.eqb_neq _ _) E). destruct ms as [|b' ms]; [reflexivity|]. rewrite IH, <- app_assoc by (discriminate || exact F'). reflexivity.
Qed.
Lemma feed_first bs d cur init : bs <> [] -> Forall (fun x => snd x = 0%Z) bs -> (cur = [] /\ init = true) \/ init = false ->
  fold_left feed bs (d, cur, init) = (d ++ order cur, bs, true).
Proof.
  intros Nb F H. destruct bs as [|b bs]; [congruence|]. inversion F as [|? ? E F']; subst. cbn [fold_left feed]. rewrite E. cbn [Z.eqb].
  destruct H as [[-> ->]| ->]; rewrite feed_bases by exact F'; cbn [app]; [|reflexivity]. change (order []) with (@nil N). now rewrite app_nil_r.
Qed.
Lemma feed_runs rs : runs rs -> forall d cur init, (cur = [] /\ init = true) \/ init = false ->
  total (fold_left feed (concat rs) (d, cur, init)) = d ++ order cur ++ concat (map order rs).
Proof.
  induction 1 as [|bs N F|bs ms rs N F Nm Fm R IH]; intros d cur init H; cbn [concat map].
  - cbn [fold_left total]. now rewrite app_nil_r.
  - rewrite app_nil_r, feed_first by assumption. cbn [total]. now rewrite app_nil_r, <- app_assoc.
  - rewrite !fold_left_app, (feed_first bs), feed_marks by assumption. rewrite IH by now right. now rewrite <- !app_assoc.
Qed.

Section Reorder.
  Context (ws : N -> bool) (lower : pystr -> pystr) (pyint : pystr -> option Z).
  Variable t : rule.
  Variable i : slot.
  Hypothesis Hi : i <> SBase.

  (** a text with the codes of its characters *)
  Inductive coded : pystr -> list (N * charcode) -> Prop :=
  | coded_nil : coded [] []
  | coded_step xs rest ys : xs <> [] -> get_charcodes ws lower pyint t (map fst xs ++ rest) = Ok (map snd xs) ->
      coded rest ys -> coded (map fst xs ++ rest) (xs ++ ys).
  (** a character with nothing but an order *)
  Definition only_order (c : charcode) : Prop := cc_tertiary c = 0%Z /\ cc_prebase c = false.
  Definition ord_of (x : N * charcode) : N * Z := (fst x, cc_primary (snd x)).

  Definition sim (instr out0 : pystr) (p : nat) (a : fstate) (st : rstate * context) : Prop :=
    let '(d, cur, init) := a in let (r, ctx) := st in
    rr_start r + length cur = p /\ map fst cur = slice instr (rr_start r) p /\ rr_keys r = keys_of (rr_start r) (map snd cur) /\
    rr_init r = init /\ l_out (lget ctx i) = out0 ++ d /\ (cur = [] -> init = true) /\
    (forall x cur', cur = x :: cur' -> snd x = 0%Z).

  Lemma slice_S (instr : pystr) a p x rest : a <= p -> skipn p instr = x :: rest -> slice instr a (S p) = slice instr a p ++ [x].
  Proof.
    intros L E. rewrite (slice_split lower pyint instr a p (S p)) by lia. f_equal. unfold slice. rewrite E. replace (S p - p) with 1 by lia. reflexivity.
  Qed.
  Lemma sort_run_order cur p : (forall x cur', cur = x :: cur' -> snd x = 0%Z) -> cur <> [] ->
    sort_run (map fst cur) (keys_of p (map snd cur)) = Ok (order cur).
  Proof.
    intros H N. unfold sort_run.
    assert (existsb (fun x => (Z.eqb (sk_primary x) 0 && Z.eqb (sk_tertiary x) 0)%bool) (keys_of p (map snd cur)) = true) as ->.
    { destruct cur as [|x cur]; [congruence|]. cbn [map keys_of existsb sk_primary sk_tertiary]. rewrite (H x cur eq_refl). reflexivity. }
    now rewrite sort_keys.
  Qed.
  Lemma sim_char instr out0 p a st x rest c : sim instr out0 p a st -> skipn p instr = x :: rest -> only_order c ->
    (snd (fst a) = [] -> cc_primary c = 0%Z) ->
    exists st', reorder_char instr i p c st = Ok st' /\ sim instr out0 (S p) (feed a (x, cc_primary c)) st'.
  Proof.
    destruct a as [[d cur] init], st as [r ctx]. intros (S1 & S2 & S3 & S4 & S5 & S6 & S7) E [O1 O2] F. cbn [fst snd] in F.
    unfold reorder_char. rewrite O1, O2. cbn [Z.eqb negb andb orb sk_primary sk_tertiary]. cbv zeta.
    assert (rr_start r <= p) as L by lia. rewrite !andb_true_r, !orb_false_r. cbn [feed snd].
    destruct (Z.eqb_spec (cc_primary c) 0) as [Ez|Ez]; cbn [negb andb orb].
    - rewrite S4. destruct init; cbn [negb andb].
      + eexists. split; [reflexivity|]. cbn [sim rr_start rr_keys rr_init]. rewrite app_length. cbn [length].
        split; [lia|]. split; [now rewrite map_app, S2, (slice_S _ _ _ _ _ L E)|].
        split; [rewrite map_app, keys_of_app, map_length, S1, S3; reflexivity|]. split; [reflexivity|]. split; [exact S5|]. split; [now intros|].
        intros y cur' Q. destruct cur as [|z cur]; injection Q as <- _; [exact Ez|now apply (S7 _ _ eq_refl)].
      + assert (cur <> []) as NE by (intros ->; specialize (S6 eq_refl); discriminate).
        rewrite S3, <- S2, sort_run_order by assumption. cbn [bind].
        eexists. split; [reflexivity|]. cbn [sim rr_start rr_keys rr_init length map fst snd].
        split; [lia|]. split; [now rewrite (slice_S _ _ _ _ _ (le_n p) E); unfold slice; rewrite Nat.sub_diag|].
        split; [reflexivity|]. split; [reflexivity|]. split; [now rewrite results_out, S5, app_assoc by exact Hi|]. split; [now intros|].
        intros y cur' Q. injection Q as <- _. exact Ez.
    - eexists. split; [reflexivity|]. cbn [sim rr_start rr_keys rr_init]. rewrite app_length. cbn [length].
      split; [lia|]. split; [now rewrite map_app, S2, (slice_S _ _ _ _ _ L E)|].
      split; [rewrite map_app, keys_of_app, map_length, S1, S3; reflexivity|]. split; [reflexivity|]. split; [exact S5|].
      split; [intro Q; destruct cur; discriminate|].
      intros y cur' Q. destruct cur as [|z cur]; [|injection Q as <- _; now apply (S7 _ _ eq_refl)]. now destruct Ez, (F eq_refl).
  Qed.
  Lemma feed_cur a x : snd (fst (feed a x)) <> [].
  Proof. destruct a as [[d cur] init]. cbn [feed]. destruct (Z.eqb _ _), init; cbn [fst snd]; try discriminate; destruct cur; discriminate. Qed.
  Lemma sim_codes instr out0 : forall xs rest p a st, skipn p instr = map fst xs ++ rest -> Forall (fun x => only_order (snd x)) xs ->
    sim instr out0 p a st -> (snd (fst a) = [] -> match xs with [] => True | x :: _ => cc_primary (snd x) = 0%Z end) ->
    exists st', reorder_codes instr i p (map snd xs) st = Ok st' /\ sim instr out0 (p + length xs) (fold_left feed (map ord_of xs) a) st'
      /\ skipn (p + length xs) instr = rest.
  Proof.
    induction xs as [|[x c] xs IH]; intros rest p a st E O Sm F; cbn [map fst snd reorder_codes length fold_left app].
    - exists st. rewrite Nat.add_0_r. auto.
    - inversion O as [|? ? O1 O2]; subst. cbn [map fst snd app] in *.
      destruct (sim_char instr out0 p a st x _ c Sm E O1 F) as (st1 & E1 & S1). rewrite E1. cbn [bind].
      assert (skipn (S p) instr = map fst xs ++ rest) as E2.
      { change (S p) with (1 + p). rewrite <- skipn_skipn, E. reflexivity. }
      destruct (IH rest (S p) _ st1 E2 O2 S1) as (st2 & E3 & S2 & K).
      { intro Q. now apply feed_cur in Q. }
      exists st2. replace (p + S (length xs)) with (S p + length xs) by lia. auto.
  Qed.
  Lemma sim_loop instr out0 s ys : coded s ys -> forall fuel p a st, skipn p instr = s -> length s <= fuel -> Forall (fun x => only_order (snd x)) ys ->
    sim instr out0 p a st -> (snd (fst a) = [] -> match ys with [] => True | x :: _ => cc_primary (snd x) = 0%Z end) ->
    exists st', reorder_loop ws lower pyint fuel t instr i p st = Ok st' /\ sim instr out0 (p + length ys) (fold_left feed (map ord_of ys) a) st'
      /\ skipn (p + length ys) instr = [].
  Proof.
    induction 1 as [|xs rest ys N G C IH]; intros fuel p a st E L O S F.
    - exists st. cbn [length map fold_left]. rewrite Nat.add_0_r. split; [|auto]. destruct fuel; cbn [reorder_loop]; now rewrite E.
    - apply Forall_app in O as [O1 O2]. destruct xs as [|x xs]; [congruence|]. destruct fuel as [|f]; [cbn in L; lia|].
      destruct (sim_codes instr out0 (x :: xs) rest p a st E O1 S F) as (st1 & E1 & S1 & K1).
      cbn [reorder_loop]. rewrite E. remember (map fst (x :: xs) ++ rest) as w eqn:Ew. destruct w as [|w0 w]; [discriminate|].
      rewrite G. cbn [bind]. rewrite E1. cbn [bind]. rewrite map_length.
      destruct (IH f (p + length (x :: xs)) (fold_left feed (map ord_of (x :: xs)) a) st1 K1) as (st2 & E2 & S2 & K2); [|exact O2|exact S1| |].
      + assert (length (w0 :: w) = length (map fst (x :: xs) ++ rest)) as Q by now rewrite Ew. rewrite app_length in Q. cbn [map length] in *. lia.
      + intro Q. exfalso. cbn [map fold_left] in Q. revert Q. generalize (feed_cur a (ord_of x)). generalize (feed a (ord_of x)).
        generalize (map ord_of xs). clear. induction l as [|y l IH]; intros b H Q; [contradiction|]. cbn [fold_left] in Q. eapply IH; [apply feed_cur|exact Q].
      + exists st2. rewrite app_length, map_app, fold_left_app, Nat.add_assoc. auto.
  Qed.

  (** text before the first base: the characters, with their codes, of the rules that are found one after the other up to [rest] *)
  Inductive leading (rest : pystr) : pystr -> list (N * charcode) -> Prop :=
  | leading_nil : leading rest rest []
  | leading_step xs s ms : xs <> [] -> get_charcodes ws lower pyint t (map fst xs ++ s) = Ok (map snd xs) -> leading rest s ms ->
      leading rest (map fst xs ++ s) (xs ++ ms).
  Definition no_base (x : N * charcode) : Prop := cc_primary (snd x) <> 0%Z /\ cc_prebase (snd x) = false.
  Lemma leading_text rest s ms : leading rest s ms -> s = map fst ms ++ rest.
  Proof. induction 1 as [|xs s ms _ _ _ ->]; [reflexivity|]. now rewrite map_app, app_assoc. Qed.
  Lemma scan_no_base xs : Forall no_base xs -> scan_codes (map snd xs) = (length xs, false).
  Proof.
    induction 1 as [|x xs [H1 H2] F IH]; [reflexivity|]. cbn [map scan_codes length]. rewrite H2, (proj2 (Z.eqb_neq _ _) H1), IH. reflexivity.
  Qed.
  Lemma scan_leading rest s ms : leading rest s ms -> Forall no_base ms -> (forall f, length rest <= f -> scan_start ws lower pyint f t rest = Ok 0) ->
    forall f, length s <= f -> scan_start ws lower pyint f t s = Ok (length ms).
  Proof.
    induction 1 as [|xs s ms N G L IH]; intros F R f Lf; [now apply R|]. apply Forall_app in F as [F1 F2]. rewrite app_length, map_length in Lf.
    destruct xs as [|x xs]; [congruence|]. cbn [length] in Lf. destruct f as [|f]; [lia|].
    assert (skipn (length (x :: xs)) (map fst (x :: xs) ++ s) = s) as K.
    { rewrite <- (map_length fst (x :: xs)). apply skipn_app_exact. }
    cbn [scan_start]. remember (map fst (x :: xs) ++ s) as w eqn:Ew. destruct w as [|w0 w]; [discriminate|].
    rewrite G. cbn [bind]. rewrite scan_no_base, K, IH by (assumption || lia). cbn [bind]. now rewrite app_length.
  Qed.

  (** Text whose characters have orders only: what stands before the first base stays, and then every run is sorted by order. *)
  Theorem C56_leading : forall c s ms ys rs,
    leading s (skipn (l_off (lget c i)) (input c i)) ms -> Forall no_base ms ->
    coded s ys -> Forall (fun x => only_order (snd x)) ys ->
    runs rs -> concat rs = map ord_of ys ->
    exists c', process_reorder ws lower pyint t i c = Ok c' /\
      l_out (lget c' i) = l_stable (lget c i) ++ map fst ms ++ concat (map order rs).
  Proof.
    intros c s ms ys rs Ld Fm C O R Er. unfold process_reorder. cbv zeta. set (instr := input c i) in *.
    assert (l_off (lget (reset_output c i) i) = l_off (lget c i)) as -> by (unfold reset_output; destruct i; reflexivity).
    assert (match ys with [] => True | x :: _ => cc_primary (snd x) = 0%Z end) as F.
    { destruct ys as [|y ys]; [exact I|]. destruct R as [|bs N Z|bs ms' rs N Z]; [discriminate| |]; (destruct bs as [|b bs]; [congruence|]);
        injection Er as E _; inversion Z; subst; assumption. }
    pose proof (skipn_length (l_off (lget c i)) instr) as Len.
    rewrite (scan_leading s _ ms Ld Fm).
    2:{ intros f Lf. inversion C as [Hs Hy|xs rest zs N G C' Hs Hy]; subst s.
      - destruct f; reflexivity.
      - destruct xs as [|x xs]; [congruence|]. rewrite app_length in Lf. cbn [map length] in Lf. destruct f as [|f]; [lia|].
        cbn [map fst snd app] in *. cbn [scan_start]. rewrite G. cbn [bind scan_codes]. subst ys. cbn [app] in F. rewrite F.
        rewrite orb_true_r. reflexivity. }
    2:{ rewrite Len. lia. }
    cbn [bind]. pose proof (leading_text _ _ _ Ld) as Et.
    set (c2 := if Nat.eqb (length ms) 0 then reset_output c i else _).
    assert (l_out (lget c2 i) = l_stable (lget c i) ++ map fst ms) as E2.
    { assert (l_out (lget (reset_output c i) i) = l_stable (lget c i)) as E0 by (unfold reset_output; destruct i; reflexivity).
      unfold c2. destruct ms as [|m ms]; cbn [length Nat.eqb]; [now rewrite app_nil_r|]. rewrite results_out, E0 by exact Hi. f_equal.
      unfold slice. rewrite Et. replace (l_off (lget c i) + S (length ms) - l_off (lget c i)) with (length (map fst (m :: ms)) + 0) by (rewrite map_length; cbn [length]; lia).
      rewrite firstn_app_2. cbn [firstn]. now rewrite app_nil_r. }
    assert (skipn (l_off (lget c i) + length ms) instr = s) as Es.
    { rewrite Nat.add_comm, <- skipn_skipn, Et. rewrite <- (map_length fst ms). apply skipn_app_exact. }
    clearbody c2. set (p := l_off (lget c i) + length ms) in *.
    destruct (sim_loop instr (l_stable (lget c i) ++ map fst ms) _ ys C (length instr) p ([], [], true) (mkR p [] true 0 p, c2) Es) as ([r ctx] & E1 & S & K).
    - rewrite <- Es, skipn_length. lia.
    - exact O.
    - cbn [sim rr_start rr_keys rr_init length map]. split; [lia|]. split; [unfold slice; now rewrite Nat.sub_diag|].
      split; [reflexivity|]. split; [reflexivity|]. split; [now rewrite app_nil_r|]. split; [reflexivity|discriminate].
    - intros _. exact F.
    - rewrite E1. cbn [bind].
      pose proof (feed_runs rs R [] [] true (or_introl (conj eq_refl eq_refl))) as T. change (order []) with (@nil N) in T. cbn [app] in T.
      rewrite Er in T. destruct (fold_left feed (map ord_of ys) ([], [], true)) as [[d cur] init]. cbn [total] in T.
      destruct S as (S1 & S2 & S3 & S4 & S5 & S6 & S7).
      assert (length instr <= p + length ys) as L1.
      { pose proof (skipn_length (p + length ys) instr) as Q. rewrite K in Q. cbn in Q. lia. }
      destruct (Nat.ltb_spec (rr_start r) (length instr)) as [L|L].
      + assert (cur <> []) as NE by (intros ->; cbn in S1; lia).
        assert (slice instr (rr_start r) (length instr) = map fst cur) as ->.
        { rewrite S2. unfold slice. rewrite !firstn_all2; [reflexivity| |]; rewrite skipn_length; lia. }
        rewrite S3, sort_run_order by assumption. cbn [bind]. eexists. split; [reflexivity|].
        replace (lget (lset _ i _) i) with (mkLayer (l_stable (lget ctx i)) (l_out (lget ctx i) ++ order cur) (l_off (lget ctx i))) by (destruct i; reflexivity).
        cbn [l_out]. now rewrite S5, <- !app_assoc, T.
      + exists ctx. split; [reflexivity|]. rewrite S5.
        assert (cur = []) as ->.
        { destruct cur; [reflexivity|]. exfalso. assert (length (map fst (p0 :: cur)) = length (slice instr (rr_start r) (p + length ys))) as Q by now rewrite S2.
          unfold slice in Q. rewrite firstn_length, skipn_length in Q. cbn [map length] in Q. lia. }
        change (order []) with (@nil N) in T. rewrite app_nil_r in T. now rewrite T, <- app_assoc.
  Qed.
  (** Text that begins with a base and whose characters have orders only: every run is sorted by order. *)
  Theorem C56_sorted : forall c ys rs,
    coded (skipn (l_off (lget c i)) (input c i)) ys -> Forall (fun x => only_order (snd x)) ys ->
    runs rs -> concat rs = map ord_of ys ->
    exists c', process_reorder ws lower pyint t i c = Ok c' /\
      l_out (lget c' i) = l_stable (lget c i) ++ concat (map order rs).
  Proof. intros c ys rs C O R E. exact (C56_leading c _ [] ys rs (leading_nil _) (Forall_nil _) C O R E). Qed.

  Lemma isort3 x y z p : (p < 0)%Z -> order [(x, 0%Z); (y, 0%Z); (z, p)] = [z; x; y].
  Proof.
    intro H. unfold order. cbn [isort insert snd]. rewrite (proj2 (Z.leb_gt 0 p)) by lia. cbn [insert snd].
    rewrite (proj2 (Z.leb_gt 0 p)) by lia. reflexivity.
  Qed.
  (** A mark with an order below 0 goes before all bases that stand directly before it, not only before its own. *)
  Theorem C56_adjacent_bases_refuted : forall c x y z cx cy cz,
    coded (skipn (l_off (lget c i)) (input c i)) [(x, cx); (y, cy); (z, cz)] ->
    only_order cx -> only_order cy -> only_order cz -> cc_primary cx = 0%Z -> cc_primary cy = 0%Z -> (cc_primary cz < 0)%Z ->
    exists c', process_reorder ws lower pyint t i c = Ok c' /\ l_out (lget c' i) = l_stable (lget c i) ++ [z; x; y].
  Proof.
    intros c x y z cx cy cz C Ox Oy Oz Ex Ey Ez.
    destruct (C56_sorted c _ [[(x, 0%Z); (y, 0%Z)] ++ [(z, cc_primary cz)]] C) as (c' & E & Q).
    - repeat (apply Forall_cons; [assumption|]). apply Forall_nil.
    - apply runs_marks; [discriminate|repeat constructor|discriminate|repeat constructor; cbn; lia|apply runs_nil].
    - cbn. unfold ord_of. cbn. now rewrite Ex, Ey.
    - exists c'. split; [exact E|]. rewrite Q. cbn [map concat app]. now rewrite isort3, ?app_nil_r.
  Qed.

  (** the word for the character number [j]: the last word stands for all further characters *)
  Definition word_at (v : pystr) (j : nat) : option pystr :=
    match nth_error (words ws v) j with
    | Some w => Some w
    | None => match rev (words ws v) with w :: _ => Some w | [] => None end
    end.
  Definition number (w : pystr) (z : Z) : Prop :=
    (lower w = lit "false" /\ z = 0%Z) \/ (lower w = lit "true" /\ z = 1%Z) \/
    (lower w <> lit "false" /\ lower w <> lit "true" /\ pyint w = Some z).
  (** every word but false is true *)
  Definition flag (w : pystr) (b : bool) : Prop := b = true <-> lower w <> lit "false".

  Lemma words_nonempty s w : In w (words ws s) -> w <> [].
  Proof.
    unfold words. cut (forall acc, In w (words_from ws acc s) -> w <> []); [intros G; apply G|]. induction s as [|c s IH]; intros acc H; cbn [words_from] in H.
    - destruct acc; [contradiction|]. destruct H as [<-|[]]. discriminate.
    - destruct (ws c); [|eapply IH, H]. destruct acc; [eapply IH, H|]. destruct H as [<-|H]; [discriminate|eapply IH, H].
  Qed.
  Lemma padlist_at v n l : padlist ws lower v n = Ok l -> forall j, j < n ->
    exists w, word_at v j = Some w /\ nth_error l j = Some (pad_item lower w) /\ w <> [].
  Proof.
    unfold padlist, word_at. cbv zeta. rewrite map_length. intros E j Hj. pose proof (words_nonempty v) as NE.
    destruct (nth_error (words ws v) j) as [w|] eqn:Ew.
    - exists w. split; [reflexivity|]. split; [|eapply NE, nth_error_In, Ew]. assert (j < length (words ws v)) as L by (apply nth_error_Some; congruence).
      assert (nth_error (map (pad_item lower) (words ws v)) j = Some (pad_item lower w)) as Q by now apply map_nth_error.
      destruct (Nat.ltb _ _); [|injection E as <-; exact Q].
      destruct (rev (map _ _)); [discriminate|]. injection E as <-. rewrite nth_error_app1 by (now rewrite map_length). exact Q.
    - apply nth_error_None in Ew. rewrite (proj2 (Nat.ltb_lt _ _)) in E by lia. rewrite <- map_rev in E.
      destruct (rev (words ws v)) as [|w ws'] eqn:Er; cbn [map] in E; [discriminate|]. injection E as <-. exists w. split; [reflexivity|].
      split; [|apply NE; apply in_rev; rewrite Er; now left].
      rewrite nth_error_app2 by (rewrite map_length; lia). rewrite map_length. rewrite nth_error_repeat by lia. reflexivity.
  Qed.
  Lemma mapM_nth {A B} (f : A -> res B) : forall l r j x, mapM f l = Ok r -> nth_error l j = Some x -> exists y, nth_error r j = Some y /\ f x = Ok y.
  Proof.
    induction l as [|a l IH]; intros r j x E H; [destruct j; discriminate|]. cbn [mapM] in E.
    destruct (f a) as [y|] eqn:Ef; cbn [bind] in E; [|discriminate]. destruct (mapM f l) as [r'|] eqn:El; cbn [bind] in E; [|discriminate].
    injection E as <-. destruct j as [|j]; [injection H as <-; now exists y|]. apply (IH r' j x eq_refl H).
  Qed.
  Lemma zip_nth n : forall os bs ts ps l j c, zip_codes n os bs ts ps = Ok l -> nth_error l j = Some c ->
    nth_error os j = Some (cc_primary c) /\ nth_error bs j = Some (cc_tbase c) /\ nth_error ts j = Some (cc_tertiary c) /\ nth_error ps j = Some (cc_prebase c).
  Proof.
    induction n as [|n IH]; intros os bs ts ps l j c E H; cbn [zip_codes] in E; [injection E as <-; destruct j; discriminate|].
    destruct os, bs, ts, ps; try discriminate. destruct (zip_codes n _ _ _ _) as [l'|] eqn:El; cbn [bind] in E; [|discriminate].
    injection E as <-. destruct j as [|j]; [injection H as <-; cbn; auto|]. cbn [nth_error] in *. eapply IH; eauto.
  Qed.
  Lemma number_ok w z : as_int pyint (pad_item lower w) = Ok z -> number w z.
  Proof.
    unfold pad_item, number. destruct (streq_spec (lower w) (lit "false")); [intro E; injection E as <-; auto|].
    destruct (streq_spec (lower w) (lit "true")); [intro E; injection E as <-; auto|]. cbn [as_int].
    destruct (pyint w); intro E; [injection E as <-; auto|discriminate].
  Qed.
  Lemma flag_ok w : w <> [] -> flag w (as_bool (pad_item lower w)).
  Proof.
    intro N. unfold flag, pad_item. destruct (streq_spec (lower w) (lit "false")); [cbn; split; [discriminate|contradiction]|].
    destruct (streq_spec (lower w) (lit "true")); [cbn; tauto|]. destruct w; [congruence|]. cbn. tauto.
  Qed.
  (** The codes of the characters that the longest rule takes: the words of its attributes, one for each character. *)
  Theorem C56_codes : forall s cs, get_charcodes ws lower pyint t s = Ok cs ->
    (no_rule t s /\ cs = [mkCode 0 false 0 false]) \/
    exists n r, longest t s n r /\ length cs = n /\ forall j c, nth_error cs j = Some c ->
      (exists w, word_at (attr_or r (lit "order") (lit "0")) j = Some w /\ number w (cc_primary c)) /\
      (exists w, word_at (attr_or r (lit "tertiary") (lit "0")) j = Some w /\ number w (cc_tertiary c)) /\
      (exists w, word_at (attr_or r (lit "tertiary_base") (lit "false")) j = Some w /\ flag w (cc_tbase c)) /\
      (exists w, word_at (attr_or r (lit "prebase") (lit "false")) j = Some w /\ flag w (cc_prebase c)).
  Proof.
    intros s cs E. unfold get_charcodes in E. destruct (rules_match t s false false) as [[o n]|] eqn:Em; cbn [bind] in E; [|discriminate].
    apply C43_match in Em. destruct o as [r|]; [|left; injection E as <-; tauto]. right. exists n, r. split; [exact Em|].
    destruct (padlist ws lower (attr_or r (lit "order") (lit "0")) n) as [os0|] eqn:Eo; cbn [bind] in E; [|discriminate].
    destruct (mapM (as_int pyint) os0) as [os|] eqn:Eo2; cbn [bind] in E; [|discriminate].
    destruct (padlist ws lower (attr_or r (lit "tertiary_base") (lit "false")) n) as [bs0|] eqn:Eb; cbn [bind] in E; [|discriminate].
    destruct (padlist ws lower (attr_or r (lit "tertiary") (lit "0")) n) as [ts0|] eqn:Et; cbn [bind] in E; [|discriminate].
    destruct (mapM (as_int pyint) ts0) as [ts|] eqn:Et2; cbn [bind] in E; [|discriminate].
    destruct (padlist ws lower (attr_or r (lit "prebase") (lit "false")) n) as [ps0|] eqn:Ep; cbn [bind] in E; [|discriminate].
    assert (length cs = n) as L by (eapply zip_codes_length, E). split; [exact L|]. intros j c Hj.
    assert (j < n) as Hn by (rewrite <- L; apply nth_error_Some; congruence).
    destruct (zip_nth _ _ _ _ _ _ _ _ E Hj) as (Z1 & Z2 & Z3 & Z4).
    destruct (padlist_at _ _ _ Eo j Hn) as (w1 & W1 & X1 & N1). destruct (padlist_at _ _ _ Eb j Hn) as (w2 & W2 & X2 & N2).
    destruct (padlist_at _ _ _ Et j Hn) as (w3 & W3 & X3 & N3). destruct (padlist_at _ _ _ Ep j Hn) as (w4 & W4 & X4 & N4).
    destruct (mapM_nth _ _ _ _ _ Eo2 X1) as (y1 & Y1 & V1). destruct (mapM_nth _ _ _ _ _ Et2 X3) as (y3 & Y3 & V3).
    apply (map_nth_error as_bool) in X2, X4. rewrite Z1 in Y1. rewrite Z3 in Y3. rewrite Z2 in X2. rewrite Z4 in X4.
    injection Y1 as <-. injection Y3 as <-. injection X2 as ->. injection X4 as ->.
    repeat split; eexists; (split; [eassumption|]); try (apply number_ok; assumption); apply flag_ok; assumption.
  Qed.
End Reorder.

Definition neg_int (s : pystr) : option Z :=
  match s with 45%N :: s' => option_map Z.opp (ex_int s') | _ => ex_int s end.
Definition neg_reorder : rule := Rule false [(lit "m", ord (lit "20")); (lit "v", ord (lit "-1"))] None [] [].
Example C56_sorted_ex :
  let c := mkContext empty_layer (mkLayer [] (lit "kmvbvm") 0) empty_layer empty_layer false in
  let code o := mkCode o false 0 false in
  coded (fun c => N.eqb c 32) ascii_lower neg_int neg_reorder (input c SReorder)
    [(107%N, code 0%Z); (109%N, code 20%Z); (118%N, code (-1)%Z); (98%N, code 0%Z); (118%N, code (-1)%Z); (109%N, code 20%Z)] /\
  runs [[(107%N, 0%Z)] ++ [(109%N, 20%Z); (118%N, (-1)%Z)]; [(98%N, 0%Z)] ++ [(118%N, (-1)%Z); (109%N, 20%Z)]] /\
  concat (map order [[(107%N, 0%Z)] ++ [(109%N, 20%Z); (118%N, (-1)%Z)]; [(98%N, 0%Z)] ++ [(118%N, (-1)%Z); (109%N, 20%Z)]]) = lit "vkmvbm".
Proof.
  cbv zeta. split; [|split; [|reflexivity]].
  - repeat match goal with
      | |- coded _ _ _ _ ?s (?x :: ?ys) => apply (coded_step _ _ _ _ [x] (map fst ys) ys); [discriminate|vm_compute; reflexivity|]
      end.
    apply coded_nil.
  - repeat (apply runs_marks; [discriminate|repeat constructor; cbn; lia|discriminate|repeat constructor; cbn; lia|]). apply runs_nil.
Qed.
(** marks before the first base stay, also those that would be sorted after it *)
Example C56_leading_ex :
  let code o := mkCode o false 0 false in
  let ms := [(109%N, code 20%Z); (118%N, code (-1)%Z)] in
  leading (fun c => N.eqb c 32) ascii_lower neg_int neg_reorder (lit "kmv") (lit "mvkmv") ms /\ Forall no_base ms /\
  coded (fun c => N.eqb c 32) ascii_lower neg_int neg_reorder (lit "kmv") [(107%N, code 0%Z); (109%N, code 20%Z); (118%N, code (-1)%Z)] /\
  map fst ms ++ order [(107%N, 0%Z); (109%N, 20%Z); (118%N, (-1)%Z)] = lit "mvvkm".
Proof.
  cbv zeta. split; [|split; [|split; [|reflexivity]]].
  - apply (leading_step _ _ _ _ _ [(109%N, mkCode 20 false 0 false)] (lit "vkmv")); [discriminate|vm_compute; reflexivity|].
    apply (leading_step _ _ _ _ _ [(118%N, mkCode (-1) false 0 false)] (lit "kmv")); [discriminate|vm_compute; reflexivity|]. apply leading_nil.
  - repeat constructor; cbn; discriminate.
  - repeat match goal with
      | |- coded _ _ _ _ ?s (?x :: ?ys) => apply (coded_step _ _ _ _ [x] (map fst ys) ys); [discriminate|vm_compute; reflexivity|]
      end.
    apply coded_nil.
Qed.
