(** C84: annotations in comments become attributes of the element that ended last before them. *)
From Coq Require Import String.
From Verif Require Import Py PyFacts M_CldrComments.
Local Open Scope list_scope.
Local Open Scope nat_scope.

(** * Specification *)
(** an annotation: an at sign and a name in capitals, maybe a colon and a value on one line, and
    white space around them *)
Definition blank (s : pystr) : Prop := Forall (fun c => is_ws c = true) s.
Definition annotates (t name v : pystr) : Prop :=
  exists a b, blank a /\ blank b /\ name <> [] /\ Forall (fun c => (65 <= c <= 90)%N) name /\
    (t = a ++ lit "@" ++ name ++ b /\ v = lit "true" \/
     exists value c, t = a ++ lit "@" ++ name ++ b ++ lit ":" ++ value ++ c /\ blank c /\ ~ In 10%N value /\
       (forall s d, value = s ++ [d] -> is_ws d = false) /\
       v = (if list_eq_dec N.eq_dec value [] then lit "true" else value)).

(** the annotations from here to the next end tag *)
Fixpoint following (after : list tok) : list (pystr * pystr) :=
  match after with
  | [] | TEnd :: _ => []
  | TStart :: after' => following after'
  | TCom t :: after' =>
      match annotation t with
      | Some (name, v) => (lit "{urn://unicode.org/cldr/types/0.1}" ++ map (fun c => (c + 32)%N) name, v) :: following after'
      | None => following after'
      end
  end.
Definition put (a : list (pystr * pystr)) (e : pystr * pystr) : list (pystr * pystr) := dset streq a (fst e) (snd e).
(** each element has its attributes and those of the annotations from its end tag to the next one;
    [after] is what follows the element inside the root. The text of an element is the one
    before its first child or comment. *)
Fixpoint settle (after : list tok) (i : item) : list rnode :=
  match i with
  | E tag attrs kids =>
      [R tag (fold_left put (following after) attrs) (lead kids)
         ((fix go (ks : list item) : list rnode :=
             match ks with [] => [] | k :: ks' => settle (flat_map tokens ks' ++ TEnd :: after) k ++ go ks' end) kids)]
  | _ => []
  end.
Fixpoint settle_all (after : list tok) (ks : list item) : list rnode :=
  match ks with [] => [] | k :: ks' => settle (flat_map tokens ks' ++ after) k ++ settle_all after ks' end.
Lemma settle_E after tag attrs kids :
  settle after (E tag attrs kids) = [R tag (fold_left put (following after) attrs) (lead kids) (settle_all (TEnd :: after) kids)].
Proof. cbn [settle]. do 2 f_equal. induction kids as [|k ks IH]; [reflexivity|]. cbn [settle_all]. now rewrite IH. Qed.

(** the document as it was, without comments and annotation attributes *)
Definition plain (a : pystr * pystr) : bool := negb (startswith (lit "{urn://unicode.org/cldr/types/0.1}") (fst a)).
Inductive bare : Type := B (tag : pystr) (attrs : list (pystr * pystr)) (kids : list bare).
Fixpoint bare_item (i : item) : list bare :=
  match i with E tag attrs kids => [B tag (filter plain attrs) (flat_map bare_item kids)] | _ => [] end.
Fixpoint bare_node (r : rnode) : bare :=
  match r with R tag attrs _ kids => B tag (filter plain attrs) (map bare_node kids) end.

(** * The annotations *)
Lemma skip_spec s : exists a, s = a ++ skip_ws s /\ blank a /\ (forall c r, skip_ws s = c :: r -> is_ws c = false).
Proof.
  induction s as [|c s [a [E1 [F H]]]]; cbn [skip_ws].
  - exists []. repeat split; [constructor|discriminate].
  - destruct (is_ws c) eqn:W.
    + exists (c :: a). split; [cbn; now f_equal|]. split; [now constructor|exact H].
    + exists []. repeat split; [constructor|]. intros d r X. congruence.
Qed.
Lemma skip_blank a s : blank a -> skip_ws (a ++ s) = skip_ws s.
Proof. induction 1 as [|c a W F IH]; cbn [app skip_ws]; [reflexivity|]. now rewrite W. Qed.
Lemma skip_keep s : (forall c r, s = c :: r -> is_ws c = false) -> skip_ws s = s.
Proof. intros H. destruct s as [|c r]; cbn [skip_ws]; [reflexivity|]. now rewrite (H c r eq_refl). Qed.
Lemma rskip_spec s : exists c, s = rskip_ws s ++ c /\ blank c /\ (forall r d, rskip_ws s = r ++ [d] -> is_ws d = false).
Proof.
  destruct (skip_spec (rev s)) as [a [E1 [F H]]]. exists (rev a). unfold rskip_ws. split; [|split].
  - rewrite <- rev_app_distr, <- E1. now rewrite rev_involutive.
  - now apply Forall_rev.
  - intros r d X. apply (H d (rev r)). rewrite <- (rev_involutive (skip_ws (rev s))), X, rev_app_distr. reflexivity.
Qed.
Lemma rskip_val v c : blank c -> (forall s d, v = s ++ [d] -> is_ws d = false) -> rskip_ws (v ++ c) = v.
Proof.
  intros BC H. unfold rskip_ws. rewrite rev_app_distr, skip_blank by (now apply Forall_rev).
  rewrite skip_keep; [apply rev_involutive|]. intros d r X. apply (H (rev r) d). rewrite <- (rev_involutive v), X. reflexivity.
Qed.
Lemma up_spec c : is_up c = true <-> (65 <= c <= 90)%N.
Proof. unfold is_up. rewrite andb_true_iff, !N.leb_le. tauto. Qed.
Lemma ups_spec s : s = fst (ups s) ++ snd (ups s) /\ Forall (fun c => (65 <= c <= 90)%N) (fst (ups s)).
Proof.
  induction s as [|c s [E1 F]]; cbn [ups]; [split; [reflexivity|constructor]|].
  destruct (is_up c) eqn:U; [|split; [reflexivity|constructor]].
  destruct (ups s) as [a b]. cbn [fst snd] in *. split; [cbn; now f_equal|]. constructor; [now apply up_spec|exact F].
Qed.
Lemma ups_max n s : Forall (fun c => (65 <= c <= 90)%N) n -> (forall c r, s = c :: r -> is_up c = false) -> ups (n ++ s) = (n, s).
Proof.
  intros F H. induction F as [|c n U F IH]; cbn [app ups].
  - destruct s as [|c r]; cbn [ups]; [reflexivity|]. now rewrite (H c r eq_refl).
  - apply up_spec in U. now rewrite U, IH.
Qed.
Lemma ws_not_up c : is_ws c = true -> is_up c = false.
Proof.
  intros W. destruct (is_up c) eqn:U; [|reflexivity]. apply up_spec in U. exfalso. unfold is_ws in W.
  rewrite !orb_true_iff, !andb_true_iff, !N.leb_le, !N.eqb_eq in W. lia.
Qed.

(** ** C84: white space is that of Unicode, and the four separators of ASCII *)
Theorem C84_white c : is_ws c = true <->
  In c [9; 10; 11; 12; 13; 28; 29; 30; 31; 32; 133; 160; 5760; 8192; 8193; 8194; 8195; 8196; 8197; 8198; 8199; 8200; 8201; 8202;
        8232; 8233; 8239; 8287; 12288]%N.
Proof.
  unfold is_ws. rewrite !orb_true_iff, !andb_true_iff, !N.leb_le, !N.eqb_eq. cbn [In]. split.
  - intro H. assert (forall a b, (a <= c <= b)%N -> In c (map N.of_nat (seq (N.to_nat a) (N.to_nat b - N.to_nat a + 1)))) as R.
    { intros a b Hc. apply in_map_iff. exists (N.to_nat c). split; [apply N2Nat.id|]. apply in_seq. lia. }
    repeat match goal with H : _ \/ _ |- _ => destruct H as [H|H] end; try (subst c; tauto); apply R in H; vm_compute in H; tauto.
  - intro H. repeat (destruct H as [<-|H]; [lia|]). destruct H.
Qed.
Theorem C84_annotation t name v : annotation t = Some (name, v) <-> annotates t name v.
Proof.
  unfold annotation. split.
  - destruct (skip_spec t) as [a [Ea [Ba _]]]. destruct (skip_ws t) as [|c s]; [discriminate|].
    intros H. assert (C1 : c = 64%N).
    { destruct (N.eq_dec c 64) as [X|X]; [exact X|]. exfalso. revert H.
      assert (forall Y (p q : Y), c <> 64%N -> match c with 64%N => p | _ => q end = q) as M.
      { clear. intros Y p q X. destruct c as [|pp]; [reflexivity|]. repeat (destruct pp as [pp|pp|]; try reflexivity); congruence. }
      rewrite M by exact X. discriminate. }
    subst c. destruct (ups_spec s) as [Eu Fu]. destruct (ups s) as [n s']. cbn [fst snd] in *.
    destruct n as [|n0 n]; [discriminate|].
    destruct (skip_spec s') as [b [Eb [Bb Hb]]]. destruct (skip_ws s') as [|d w].
    + injection H as <- <-. exists a, b. repeat split; try assumption; try discriminate. left. split; [|reflexivity].
      rewrite app_nil_r in Eb. subst s'. rewrite Ea, Eu. reflexivity.
    + assert (C2 : d = 58%N).
      { destruct (N.eq_dec d 58) as [X|X]; [exact X|]. exfalso. revert H.
        assert (forall Y (p q : Y), d <> 58%N -> match d with 58%N => p | _ => q end = q) as M.
        { clear. intros Y p q X. destruct d as [|pp]; [reflexivity|]. repeat (destruct pp as [pp|pp|]; try reflexivity); congruence. }
        rewrite M by exact X. discriminate. }
      subst d. cbv zeta in H. destruct (rskip_spec w) as [c [Ec [Bc Hc]]]. destruct (inchars 10 (rskip_ws w)) eqn:NL; [discriminate|].
      injection H as <- <-. exists a, b. repeat split; try assumption; try discriminate. right. exists (rskip_ws w), c.
      split; [|split; [exact Bc|split; [|split; [exact Hc|]]]].
      * rewrite Ea, Eu, Eb. change (lit "@") with [64%N]. change (lit ":") with [58%N].
        cbn [app]. rewrite <- Ec. reflexivity.
      * intros I. unfold inchars in NL. assert (X : existsb (N.eqb 10) (rskip_ws w) = true); [|congruence].
        apply existsb_exists. exists 10%N. split; [exact I|reflexivity].
      * destruct (rskip_ws w) as [|x y]; [reflexivity|]. destruct (list_eq_dec _ _ _); [discriminate|reflexivity].
  - intros [a [b [Ba [Bb [NE [F H]]]]]].
    assert (U1 : forall rest, (forall c r, rest = c :: r -> is_up c = false) -> forall c r, b ++ rest = c :: r -> is_up c = false).
    { intros rest HR c r X. destruct b as [|b0 b']; [now apply (HR c r)|]. injection X as <- _. inversion Bb. now apply ws_not_up. }
    destruct H as [[-> ->]|[value [c [-> [Bc [NN [NW ->]]]]]]].
    + rewrite skip_blank by exact Ba. change (lit "@" ++ name ++ b) with (64%N :: name ++ b).
      rewrite skip_keep by (intros x y X; injection X as <- _; reflexivity).
      rewrite (ups_max name b F).
      * destruct name as [|n0 n]; [congruence|]. rewrite <- (app_nil_r b), skip_blank by exact Bb. reflexivity.
      * intros x y X. apply (U1 [] ltac:(discriminate) x y). now rewrite app_nil_r.
    + rewrite skip_blank by exact Ba. change (lit "@" ++ name ++ b ++ lit ":" ++ value ++ c) with (64%N :: name ++ b ++ 58%N :: value ++ c).
      rewrite skip_keep by (intros x y X; injection X as <- _; reflexivity).
      rewrite (ups_max name (b ++ 58%N :: value ++ c) F).
      * destruct name as [|n0 n]; [congruence|]. rewrite skip_blank by exact Bb. 
        rewrite skip_keep by (intros x y X; injection X as <- _; reflexivity).
        rewrite rskip_val by assumption. cbv zeta. assert (NL : inchars 10 value = false).
        { unfold inchars. destruct (existsb (N.eqb 10) value) eqn:X; [|reflexivity]. apply existsb_exists in X. destruct X as [x [I Y]].
          apply N.eqb_eq in Y. now subst x. }
        rewrite NL. destruct value as [|x y]; [reflexivity|]. destruct (list_eq_dec _ _ _); [discriminate|reflexivity].
      * apply U1. intros x y X. injection X as <- _. reflexivity.
Qed.

(** * The run *)
Definition entries (i : nat) (l : list (nat * (pystr * pystr))) : list (pystr * pystr) :=
  map snd (filter (fun e => fst e =? i) l).
Lemma entries_app i a b : entries i (a ++ b) = entries i a ++ entries i b.
Proof. unfold entries. now rewrite filter_app, map_app. Qed.
Lemma set_attrs_entries l n : forall a, set_attrs l n a = fold_left put (entries n l) a.
Proof.
  unfold set_attrs, entries. induction l as [|[i e] l IH]; intros a; cbn [fold_left filter map fst snd]; [reflexivity|].
  destruct (i =? n); cbn [map fold_left snd]; apply IH.
Qed.
Lemma run_app a : forall b st, run (a ++ b) st = do st' <- run a st; run b st'.
Proof. induction a as [|t a IH]; intros b st; cbn [app run bind]; [reflexivity|]. destruct (event st t); cbn [bind]; [apply IH|reflexivity]. Qed.

(** the state is sound: the numbers in use are below [next], an open element is not [last] *)
Record sound (st : state) : Prop := {
  s_nodup : NoDup (stack st);
  s_stack : forall i, In i (stack st) -> i < next st;
  s_last : forall i, last st = Some i -> i < next st /\ ~ In i (stack st);
  s_log : forall i, In i (stack st) \/ next st <= i -> entries i (log st) = [] }.
Lemma event_sound st t st' : sound st -> event st t = Ok st' -> sound st' /\ next st <= next st'.
Proof.
  intros [ND SS SL SG] H. destruct t as [| |text]; cbn [event] in H.
  - injection H as <-. split; [|cbn; lia]. constructor; cbn [stack last next log].
    + constructor; [intros I; apply SS in I; lia|exact ND].
    + intros i [<-|I]; [lia|]. apply SS in I. lia.
    + intros i L. apply SL in L. destruct L as [L1 L2]. split; [lia|]. intros [<-|I]; [lia|tauto].
    + intros i [[<-|I]|I]; apply SG; [right; lia|now left|right; lia].
  - destruct (stack st) as [|i s] eqn:K; [discriminate|]. injection H as <-. split; [|cbn; lia]. inversion ND as [|? ? N1 N2]. subst.
    constructor; cbn [stack last next log]; [exact N2|intros j I; apply SS; now right| |].
    + intros j X. injection X as <-. split; [apply SS; now left|exact N1].
    + intros j [I|I]; apply SG; [left; now right|now right].
  - destruct (stack st) as [|i s] eqn:K; [injection H as <-; split; [constructor; rewrite ?K; assumption|lia]|].
    destruct (annotation text) as [[n v]|]; [|injection H as <-; split; [constructor; rewrite ?K; assumption|lia]].
    destruct (last st) as [j|] eqn:L; [|discriminate]. injection H as <-. split; [|cbn; lia].
    constructor; cbn [stack last next log]; try assumption.
    intros k I. rewrite entries_app, (SG k I). unfold entries. cbn [app filter fst]. destruct (SL j eq_refl) as [S1 S2].
    destruct (j =? k) eqn:J; [|reflexivity]. apply Nat.eqb_eq in J. subst k. destruct I as [I|I]; [tauto|lia].
Qed.
Lemma run_sound ts : forall st st', sound st -> run ts st = Ok st' -> sound st' /\ next st <= next st'.
Proof.
  induction ts as [|t ts IH]; intros st st' V H; cbn [run] in H; [injection H as <-; split; [exact V|lia]|].
  destruct (event st t) as [st1|e] eqn:E1; [|discriminate]. cbn [bind] in H.
  destruct (event_sound _ _ _ V E1) as [V1 L1]. destruct (IH _ _ V1 H) as [V2 L2]. split; [exact V2|lia].
Qed.
Lemma event_log st t st' : event st t = Ok st' ->
  log st' = log st ++ match t, stack st, last st with
                      | TCom text, _ :: _, Some i => match annotation text with Some (n, v) => [(i, (cldrtns ++ lower n, v))] | None => [] end
                      | _, _, _ => [] end.
Proof.
  destruct t as [| |text]; cbn [event]; intros H.
  - injection H as <-. cbn. now rewrite app_nil_r.
  - destruct (stack st); [discriminate|]. injection H as <-. cbn. now rewrite app_nil_r.
  - destruct (stack st); [injection H as <-; now rewrite app_nil_r|].
    destruct (annotation text) as [[nm v]|]; [destruct (last st) as [j|]; [injection H as <-; reflexivity|discriminate]|].
    injection H as <-. destruct (last st); now rewrite app_nil_r.
Qed.

(** an element that has ended before and is not the last one gets nothing; one still open neither *)
Lemma quiet ts : forall st st' i, sound st -> run ts st = Ok st' -> i < next st -> ~ In i (stack st) -> last st <> Some i ->
  entries i (log st') = entries i (log st).
Proof.
  induction ts as [|t ts IH]; intros st st' i V H L NI NL; cbn [run] in H; [injection H as <-; reflexivity|].
  destruct (event st t) as [st1|e] eqn:E1; [|discriminate]. cbn [bind] in H.
  destruct (event_sound _ _ _ V E1) as [V1 L1].
  assert (X : ~ In i (stack st1) /\ last st1 <> Some i).
  { destruct t as [| |text]; cbn [event] in E1.
    - injection E1 as <-. cbn. split; [intros [Y|Y]; [lia|tauto]|exact NL].
    - destruct (stack st) as [|j s] eqn:K; [discriminate|]. injection E1 as <-. cbn. split; [intros Y; apply NI; now right|].
      intros Y. injection Y as ->. apply NI. now left.
    - destruct (stack st) eqn:K; [injection E1 as <-; rewrite K; tauto|].
      destruct (annotation text) as [[nm v]|]; [|injection E1 as <-; rewrite K; tauto].
      destruct (last st) eqn:LL; [|discriminate]. injection E1 as <-. cbn [stack last]. rewrite <- ?K, <- ?LL in *. tauto. }
  destruct X as [X1 X2]. rewrite (IH st1 st' i V1 H ltac:(lia) X1 X2).
  rewrite (event_log _ _ _ E1), entries_app.
  destruct t as [| |text]; try apply app_nil_r. destruct (stack st); [apply app_nil_r|]. destruct (last st) as [j|]; [|apply app_nil_r].
  destruct (annotation text) as [[nm v]|]; [|apply app_nil_r]. unfold entries at 2. cbn [filter fst].
  destruct (j =? i) eqn:J; [apply Nat.eqb_eq in J; congruence|]. apply app_nil_r.
Qed.

(** the last ended element gets what follows up to the next end. The stack is not empty until
    then: comments after the root are not read. *)
Fixpoint inside (d : nat) (ts : list tok) : bool :=
  match ts with
  | [] => true
  | TStart :: ts' => inside (S d) ts'
  | TEnd :: ts' => match d with O => false | S d' => inside d' ts' end
  | TCom _ :: ts' => match d with O => false | S _ => inside d ts' end
  end.
Lemma gets ts : forall st st' i, sound st -> run ts st = Ok st' -> last st = Some i -> inside (length (stack st)) ts = true ->
  entries i (log st') = entries i (log st) ++ following ts.
Proof.
  induction ts as [|t ts IH]; intros st st' i V H L IN; cbn [run following] in *; [injection H as <-; symmetry; apply app_nil_r|].
  destruct (event st t) as [st1|e] eqn:E1; [|discriminate]. cbn [bind] in H.
  destruct (event_sound _ _ _ V E1) as [V1 L1].
  destruct (s_last _ V i L) as [Li NI].
  destruct t as [| |text].
  - cbn [event] in E1. injection E1 as <-. apply (IH _ _ i V1 H); [exact L|exact IN].
  - rewrite app_nil_r. cbn [event] in E1. destruct (stack st) as [|j s] eqn:K; [discriminate|]. injection E1 as <-.
    rewrite (quiet ts _ st' i V1 H); cbn [stack last next log]; [reflexivity|exact Li|intros Y; apply NI; now right|].
    intros Y. injection Y as ->. apply NI. now left.
  - destruct (stack st) as [|j s] eqn:K; [discriminate|]. cbn [length inside] in IN.
    pose proof (event_log _ _ _ E1) as EL. rewrite K, L in EL.
    assert (ST : stack st1 = stack st /\ last st1 = last st).
    { cbn [event] in E1. rewrite K, L in E1. destruct (annotation text) as [[nm v]|]; injection E1 as <-; cbn [stack last]; auto. }
    destruct ST as [ST1 ST2].
    rewrite (IH st1 st' i V1 H); [|now rewrite ST2|rewrite ST1, K; exact IN].
    rewrite EL, entries_app, <- app_assoc. f_equal. destruct (annotation text) as [[nm v]|]; [|reflexivity].
    unfold entries. cbn [filter fst]. rewrite Nat.eqb_refl. reflexivity.
Qed.

(** * The tree *)
Lemma item_ind' (P : item -> Prop) : (forall tag attrs kids, Forall P kids -> P (E tag attrs kids)) -> (forall t, P (C t)) -> (forall s, P (T s)) -> forall i, P i.
Proof.
  intros HE HC HT. fix IH 1. intros [tag attrs kids|t|s]; [|apply HC|apply HT]. apply HE.
  induction kids as [|k ks IHk]; constructor; [apply IH|exact IHk].
Qed.
Lemma build_E l n tag attrs kids :
  build l n (E tag attrs kids) = [R tag (set_attrs l n attrs) (lead kids) (build_all l (S n) kids)].
Proof.
  cbn [build]. do 2 f_equal. generalize (S n). induction kids as [|k ks IH]; intros m; [reflexivity|]. cbn [build_all]. now rewrite IH.
Qed.
Lemma run_cons t ts st : run (t :: ts) st = do st' <- event st t; run ts st'.
Proof. reflexivity. Qed.
Lemma balanced i : forall st st', run (tokens i) st = Ok st' -> stack st' = stack st /\ next st' = next st + size i.
Proof.
  induction i as [tag attrs kids IH|t|s] using item_ind'; intros st st' H; cbn [tokens] in H.
  - rewrite run_cons in H. cbn [event bind] in H. rewrite run_app in H.
    assert (K : forall ks, Forall (fun i => forall st st', run (tokens i) st = Ok st' -> stack st' = stack st /\ next st' = next st + size i) ks ->
      forall st st', run (flat_map tokens ks) st = Ok st' -> stack st' = stack st /\ next st' = next st + list_sum (map size ks)).
    { clear. induction 1 as [|k ks Hk F IH]; intros st st' H; cbn [flat_map map] in *.
      - injection H as <-. cbn. split; [reflexivity|lia].
      - rewrite run_app in H. destruct (run (tokens k) st) as [s1|e] eqn:R1; [|discriminate]. cbn [bind] in H.
        destruct (Hk _ _ R1) as [A1 A2]. destruct (IH _ _ H) as [B1 B2]. split; [congruence|].
        change (list_sum (size k :: map size ks)) with (size k + list_sum (map size ks)). lia. }
    destruct (run (flat_map tokens kids) _) as [s1|e] eqn:R1; [|discriminate]. cbn [bind] in H.
    destruct (K _ IH _ _ R1) as [A1 A2]. cbn [stack next] in A1, A2. cbn [run event] in H. rewrite A1 in H. cbn [bind] in H.
    injection H as <-. cbn [stack next size]. split; [reflexivity|]. lia.
  - cbn [run event] in H. cbn [size]. rewrite Nat.add_0_r. destruct (stack st) eqn:K; cbn [bind] in H; [injection H as <-; auto|].
    destruct (annotation t) as [[nm v]|]; [destruct (last st); [|discriminate]|]; cbn [bind] in H; injection H as <-; auto.
  - cbn [run] in H. injection H as <-. cbn [size]. split; [reflexivity|lia].
Qed.
Lemma inside_kids : forall i d ts, inside (S d) (tokens i ++ ts) = inside (S d) ts.
Proof.
  intros i. induction i as [tag attrs kids IH|t|s] using item_ind'; intros d ts; cbn [tokens app inside]; try reflexivity.
  rewrite <- app_assoc. cbn [app].
  assert (K : forall us, inside (S (S d)) (flat_map tokens kids ++ us) = inside (S (S d)) us).
  { induction IH as [|k ks Hk F IHk]; intros us; [reflexivity|]. cbn [flat_map]. rewrite <- app_assoc, Hk. apply IHk. }
  rewrite K. reflexivity.
Qed.
Lemma inside_all ks d ts : inside (S d) (flat_map tokens ks ++ ts) = inside (S d) ts.
Proof. induction ks as [|k ks IH]; [reflexivity|]. cbn [flat_map]. rewrite <- app_assoc, inside_kids. exact IH. Qed.

Definition placed (i : item) : Prop := forall after st st', sound st -> run (tokens i ++ after) st = Ok st' ->
  (stack st <> [] \/ exists tag attrs kids, i = E tag attrs kids) ->
  inside (length (stack st)) after = true -> build (log st') (next st) i = settle after i.
Lemma placed_list ks : Forall placed ks -> forall after st st', sound st -> run (flat_map tokens ks ++ after) st = Ok st' ->
  stack st <> [] -> inside (length (stack st)) after = true -> build_all (log st') (next st) ks = settle_all after ks.
Proof.
  induction 1 as [|k ks Hk F IH]; intros after st st' V H NE IN; cbn [flat_map build_all settle_all] in *; [reflexivity|].
  rewrite <- app_assoc in H.
  assert (D : exists d, length (stack st) = S d) by (destruct (stack st) as [|x y]; [congruence|exists (length y); reflexivity]).
  destruct D as [d D]. f_equal.
  - apply (Hk _ st st' V H); [now left|]. rewrite D, inside_all, <- D. exact IN.
  - rewrite run_app in H. destruct (run (tokens k) st) as [s1|e] eqn:R1; [|discriminate]. cbn [bind] in H.
    destruct (balanced k _ _ R1) as [A1 A2]. destruct (run_sound _ _ _ V R1) as [V1 _].
    rewrite <- A2. apply IH; [exact V1|exact H|now rewrite A1|now rewrite A1].
Qed.
Lemma all_placed i : placed i.
Proof.
  induction i as [tag attrs kids IH|t|s] using item_ind'; intros after st st' V H NE IN; [|reflexivity|reflexivity].
  rewrite build_E, settle_E. cbn [tokens app] in H. rewrite <- app_assoc in H. cbn [app] in H.
  rewrite run_cons in H. destruct (event st TStart) as [s1|e] eqn:E1; [|discriminate]. cbn [bind] in H.
  destruct (event_sound _ _ _ V E1) as [V1 _]. cbn [event] in E1. injection E1 as E1.
  assert (K1 : stack s1 = next st :: stack st) by now rewrite <- E1. assert (K2 : next s1 = S (next st)) by now rewrite <- E1.
  f_equal. f_equal.
  - rewrite set_attrs_entries. f_equal. rewrite run_app in H.
    destruct (run (flat_map tokens kids) s1) as [s2|e] eqn:R2; [|discriminate]. cbn [bind] in H.
    destruct (run_sound _ _ _ V1 R2) as [V2 _].
    assert (A : stack s2 = stack s1).
    { clear - R2. revert s1 s2 R2. induction kids as [|k ks IH]; intros s1 s2 R2; cbn [flat_map] in R2; [injection R2 as <-; reflexivity|].
      rewrite run_app in R2. destruct (run (tokens k) s1) as [s3|e] eqn:R3; [|discriminate]. cbn [bind] in R2.
      destruct (balanced k _ _ R3) as [B1 _]. rewrite (IH _ _ R2). exact B1. }
    rewrite run_cons in H. destruct (event s2 TEnd) as [s3|e] eqn:E3; [|discriminate]. cbn [bind] in H.
    destruct (event_sound _ _ _ V2 E3) as [V3 _]. cbn [event] in E3. rewrite A, K1 in E3. injection E3 as E3.
    rewrite (gets after s3 st' (next st) V3 H); [|now rewrite <- E3|rewrite <- E3; cbn [stack]; exact IN].
    rewrite <- E3. cbn [log]. rewrite (s_log _ V2); [reflexivity|]. left. rewrite A, K1. now left.
  - rewrite <- K2. apply placed_list; [exact IH|exact V1|exact H|rewrite K1; discriminate|]. rewrite K1. cbn [length inside]. exact IN.
Qed.
Lemma run_outside l : forall st, stack st = [] -> run (map TCom l) st = Ok st.
Proof. induction l as [|t l IH]; intros st K; [reflexivity|]. cbn [map run event]. rewrite K. cbn [bind]. now apply IH. Qed.
Lemma sound0 : sound (St [] None 0 []).
Proof. constructor; cbn; [constructor|intros i []|discriminate|reflexivity]. Qed.
Lemma parse_run before tag attrs kids after :
  parse before tag attrs kids after =
  do st <- run (tokens (E tag attrs kids)) (St [] None 0 []); Ok (R tag (set_attrs (log st) 0 attrs) (lead kids) (build_all (log st) 1 kids)).
Proof.
  unfold parse. rewrite run_app, run_outside by reflexivity. cbn [bind]. rewrite run_app.
  destruct (run (tokens (E tag attrs kids)) (St [] None 0 [])) as [st|e] eqn:R1; [|reflexivity]. cbn [bind].
  destruct (balanced _ _ _ R1) as [A _]. rewrite run_outside by exact A. cbn [bind]. rewrite build_E. reflexivity.
Qed.

(** Every element has exactly the attributes it had and those of the annotations between its end
    tag and the next end tag inside the root. *)
Theorem C84_placed before tag attrs kids after r :
  parse before tag attrs kids after = Ok r -> [r] = settle [] (E tag attrs kids).
Proof.
  rewrite parse_run. destruct (run (tokens (E tag attrs kids)) (St [] None 0 [])) as [st|e] eqn:R1; [|discriminate].
  cbn [bind]. intros H. injection H as <-. rewrite <- (all_placed (E tag attrs kids) [] (St [] None 0 []) st sound0).
  - now rewrite build_E.
  - now rewrite app_nil_r.
  - right. eauto.
  - reflexivity.
Qed.

Lemma late ts : forall st, last st <> None -> inside (length (stack st)) ts = true -> exists st', run ts st = Ok st'.
Proof.
  induction ts as [|t ts IH]; intros st L IN; [now exists st|]. rewrite run_cons. destruct t as [| |text]; cbn [event inside] in *.
  - cbn [bind]. apply IH; [exact L|exact IN].
  - destruct (stack st) as [|i s] eqn:K; [discriminate|]. cbn [bind]. apply IH; [discriminate|exact IN].
  - destruct (stack st) as [|i s] eqn:K; [discriminate|].
    destruct (annotation text) as [[n v]|]; [destruct (last st) eqn:LL; [|congruence]|]; cbn [bind]; apply IH; cbn [last stack]; rewrite ?K; auto; congruence.
Qed.
Definition early (ts : list tok) : Prop :=
  exists pre text rest name v, ts = pre ++ TCom text :: rest /\ ~ In TEnd pre /\ annotates text name v.
Lemma early_run ts : forall st, last st = None -> inside (length (stack st)) ts = true ->
  match run ts st with Ok _ => ~ early ts | Raise e => e = AttributeError /\ early ts end.
Proof.
  induction ts as [|t ts IH]; intros st L IN.
  - cbn [run]. intros [pre [x [r [n [v [X _]]]]]]. destruct pre; discriminate.
  - rewrite run_cons. assert (SK : t <> TEnd -> (forall x, t = TCom x -> annotation x = None) -> (early (t :: ts) <-> early ts)).
    { intros NT NA. split.
      - intros [pre [x [r [n [v [X [Y Z]]]]]]]. destruct pre as [|p pre]; injection X as X1 X2.
        + apply C84_annotation in Z. rewrite (NA x X1) in Z. discriminate.
        + exists pre, x, r, n, v. split; [exact X2|]. split; [intros I; apply Y; now right|exact Z].
      - intros [pre [x [r [n [v [X [Y Z]]]]]]]. exists (t :: pre), x, r, n, v. split; [now rewrite X|]. split; [|exact Z].
        intros [I|I]; [congruence|tauto]. }
    destruct t as [| |text]; cbn [event inside] in *.
    + cbn [bind]. specialize (IH (St (next st :: stack st) (last st) (S (next st)) (log st)) L IN).
      destruct (run ts _) as [st'|e]; rewrite SK; try exact IH; discriminate.
    + destruct (stack st) as [|i s] eqn:K; [discriminate|]. cbn [bind].
      destruct (late ts (St s (Some i) (next st) (log st))) as [st' ->]; [discriminate|exact IN|].
      intros [pre [x [r [n [v [X [Y Z]]]]]]]. destruct pre as [|p pre]; [discriminate|]. injection X as <- _. apply Y. now left.
    + destruct (stack st) as [|i s] eqn:K; [discriminate|].
      destruct (annotation text) as [[n v]|] eqn:A.
      * rewrite L. cbn [bind]. split; [reflexivity|]. exists [], text, ts, n, v. split; [reflexivity|]. split; [intros []|now apply C84_annotation].
      * cbn [bind length] in *. assert (IN2 : inside (length (stack st)) ts = true) by (rewrite K; exact IN). specialize (IH st L IN2).
        destruct (run ts st) as [st'|e]; rewrite SK; try exact IH; try discriminate; intros x X; injection X as <-; exact A.
Qed.

(** It fails, for every document with an annotation before any element inside the root has ended,
    and for no other. *)
Theorem C84_fails before tag attrs kids after :
  match parse before tag attrs kids after with
  | Ok _ => ~ early (flat_map tokens kids)
  | Raise e => e = AttributeError /\ early (flat_map tokens kids)
  end.
Proof.
  rewrite parse_run. cbn [tokens]. rewrite run_cons. cbn [event bind].
  set (st := St _ _ _ _).
  pose proof (early_run (flat_map tokens kids ++ [TEnd]) st eq_refl) as X. cbn [length stack st] in X.
  assert (IN : inside 1 (flat_map tokens kids ++ [TEnd]) = true) by (rewrite inside_all; reflexivity). specialize (X IN).
  assert (EQ : early (flat_map tokens kids ++ [TEnd]) <-> early (flat_map tokens kids)).
  { split.
    - intros [pre [x [r [n [v [Y [Z W]]]]]]]. destruct r as [|y r] using rev_ind.
      + change (pre ++ [TCom x]) with (pre ++ [TCom x]) in Y. apply app_inj_tail in Y. destruct Y. discriminate.
      + exists pre, x, r, n, v. split; [|now split]. change (TCom x :: r ++ [y]) with ((TCom x :: r) ++ [y]) in Y. rewrite app_assoc in Y. apply app_inj_tail in Y. tauto.
    - intros [pre [x [r [n [v [Y [Z W]]]]]]]. exists pre, x, (r ++ [TEnd]), n, v. split; [|now split]. rewrite Y, <- app_assoc. reflexivity. }
  destruct (run (flat_map tokens kids ++ [TEnd]) st) as [st'|e]; cbn [bind]; now rewrite <- EQ.
Qed.

(** Nothing else of the elements changes. *)
Lemma plain_put l : forall a, (forall e, In e l -> plain e = false) -> filter plain (fold_left put l a) = filter plain a.
Proof.
  induction l as [|e l IH]; intros a H; [reflexivity|]. cbn [fold_left]. rewrite IH by (intros x I; apply H; now right).
  pose proof (H e (or_introl eq_refl)) as P. unfold put. destruct e as [k v]. cbn [fst snd].
  assert (PK : forall w, plain (k, w) = false) by (intros w; exact P).
  induction a as [|[k' v'] a IHa]; cbn [dset filter]; [now rewrite PK|].
  destruct (streq k k') eqn:E1; cbn [filter].
  - destruct (streq_spec k k') as [->|]; [|discriminate]. rewrite !PK. reflexivity.
  - now rewrite IHa.
Qed.
Lemma following_marked ts : forall e, In e (following ts) -> plain e = false.
Proof.
  induction ts as [|t ts IH]; intros e I; [destruct I|]. destruct t as [| |x]; cbn [following] in I; [auto|destruct I|].
  destruct (annotation x) as [[n v]|]; [|auto]. destruct I as [<-|I]; [|auto]. unfold plain. cbn [fst]. apply negb_false_iff.
  reflexivity.
Qed.
Lemma settle_bare i : forall after, map bare_node (settle after i) = bare_item i.
Proof.
  induction i as [tag attrs kids IH|t|s] using item_ind'; intros after; try reflexivity.
  rewrite settle_E. cbn [map bare_node bare_item]. rewrite plain_put by apply following_marked. do 2 f_equal.
  generalize (TEnd :: after). induction IH as [|k ks Hk F IHk]; intros af; [reflexivity|]. cbn [settle_all flat_map].
  rewrite map_app, Hk, IHk. reflexivity.
Qed.
Theorem C84_rest before tag attrs kids after r :
  parse before tag attrs kids after = Ok r -> [bare_node r] = bare_item (E tag attrs kids).
Proof. intros H. apply C84_placed in H. rewrite <- (settle_bare _ []), <- H. reflexivity. Qed.

(** Text after a comment is lost, though the element has nothing but text and comments. *)
Theorem C84_text_refuted before tag attrs a t b after : annotation t = None ->
  exists r, parse before tag attrs [T a; C t; T b] after = Ok r /\
            write r = OStart tag attrs :: (match a with [] => [] | _ => [OText a] end) ++ [OEnd tag].
Proof.
  intros A. rewrite parse_run. cbn [tokens flat_map app run event bind stack last next log]. rewrite A. cbn [bind run event stack last next log].
  eexists. split; [reflexivity|]. cbn. now rewrite app_nil_r.
Qed.
Theorem C84_text before tag attrs kids after r : parse before tag attrs kids after = Ok r ->
  (forall k, In k kids -> exists s, k = T s) ->
  exists text, kids = map T text /\ write r = OStart tag attrs :: (match concat text with [] => [] | s => [OText s] end) ++ [OEnd tag].
Proof.
  intros H K. assert (X : exists text, kids = map T text).
  { clear H. induction kids as [|k ks IH]; [now exists []|]. destruct (K k (or_introl eq_refl)) as [s ->].
    destruct IH as [ts ->]; [intros j I; apply K; now right|]. now exists (s :: ts). }
  destruct X as [text ->]. exists text. split; [reflexivity|]. apply C84_placed in H. rewrite settle_E in H. injection H as ->.
  assert (S0 : settle_all [TEnd] (map T text) = []).
  { clear. induction text as [|s l IH]; [reflexivity|]. cbn [map settle_all settle app]. exact IH. }
  assert (L0 : lead (map T text) = concat text).
  { clear. induction text as [|s l IH]; [reflexivity|]. cbn [map lead concat]. now rewrite IH. }
  rewrite S0, L0. cbn [write following fold_left]. destruct (concat text); reflexivity.
Qed.

(** * The hypotheses are met *)
Definition kids1 : list item :=
  [E (lit "a") [(lit "x", lit "1")] [T (lit "hi")]; C (lit " @DEPRECATED "); T (lit " ");
   E (lit "b") [] [C (lit "@MATCH: any "); C (lit "just words"); E (lit "c") [] []; C (lit "@VALUE")]].
Definition ann (s : pystr) : pystr := lit "{urn://unicode.org/cldr/types/0.1}" ++ s.
Example C84_met : parse [lit "@A"] (lit "root") [] kids1 [lit "@B"] =
  Ok (R (lit "root") [] []
     [R (lit "a") [(lit "x", lit "1"); (ann (lit "deprecated"), lit "true"); (ann (lit "match"), lit " any")] (lit "hi") [];
      R (lit "b") [] [] [R (lit "c") [(ann (lit "value"), lit "true")] [] []]]).
Proof. vm_compute. reflexivity. Qed.
Example C84_met_fails : early (flat_map tokens [E (lit "a") [] [C (lit "@X:1")]]).
Proof.
  exists [TStart], (lit "@X:1"), [TEnd], (lit "X"), (lit "1"). split; [reflexivity|]. split; [intros [X|[]]; discriminate|].
  apply C84_annotation. vm_compute. reflexivity.
Qed.
Example C84_met_text : annotation (lit "just words") = None.
Proof. vm_compute. reflexivity. Qed.

Print Assumptions C84_annotation.
Print Assumptions C84_placed.
Print Assumptions C84_fails.
Print Assumptions C84_rest.
Print Assumptions C84_text.
Print Assumptions C84_text_refuted.
