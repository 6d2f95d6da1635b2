(** C83: the rules and the pieces of the script that breaks lines of text.
    The specification comes first; it does not use the model's functions, except to say what the
    script is given. *)
From Coq Require Import String Relations.
From Verif Require Import Py PyFacts M_BreakText.
Local Open Scope list_scope.
Local Open Scope nat_scope.

(** * Specification *)
(** a name is a dollar and all the letters a-z and A-Z that follow it, at least one *)
Definition letter (c : N) : Prop := (65 <= c <= 90 \/ 97 <= c <= 122)%N.
Definition mentions (t w : pystr) : Prop :=
  exists pre ls post, t = pre ++ w ++ post /\ w = 36%N :: ls /\ ls <> [] /\ Forall letter ls /\
                      (forall c p, post = c :: p -> ~ letter c).
(** one variable uses another *)
Definition uses (vs : list var) (a b : pystr) : Prop := exists t, In (a, Some t) vs /\ mentions t b.
Definition cyclic (vs : list var) : Prop := exists a, clos_trans pystr (uses vs) a a.
Definition named (vs : list var) (k : pystr) : Prop := exists t, In (k, t) vs.
(** a text without the white space around it *)
Definition trimmed (ws : N -> bool) (u t : pystr) : Prop :=
  exists a b, u = a ++ t ++ b /\ Forall (fun c => ws c = true) a /\ Forall (fun c => ws c = true) b /\
              (forall c r, t = c :: r -> ws c = false) /\ (forall c r, t = r ++ [c] -> ws c = false).
(** the text of a variable is that of its last definition *)
Definition value (ws : N -> bool) (vs : list var) (k t : pystr) : Prop :=
  exists a u b, vs = a ++ (k, Some u) :: b /\ ~ named b k /\ trimmed ws u t.
Definition before (l : list pystr) (x y : pystr) : Prop := exists a b c, l = a ++ x :: b ++ y :: c.
Definition number (num : pystr -> option Z) (r : rule) : option Z :=
  match fst r with Some i => num i | None => None end.
Definition numbered (num : pystr -> option Z) (z : Z) (r : rule) : bool :=
  match number num r with Some y => Z.eqb y z | None => false end.
Definition rising (num : pystr -> option Z) (a b : rule) : Prop :=
  exists y z, number num a = Some y /\ number num b = Some z /\ (y <= z)%Z.

(** The text is every variable once, each after those it uses, then every rule in the order of
    the numbers, rules of one number as in the file; a line ends with a semicolon. *)
Definition well_made (ws : N -> bool) (num : pystr -> option Z) (s : segmentation) (text : pystr) : Prop :=
  exists ks rs dl rl,
    NoDup ks /\ (forall k, In k ks <-> named (fst s) k) /\
    (forall a b, uses (fst s) a b -> before ks b a) /\
    Permutation rs (snd s) /\ StronglySorted (rising num) rs /\
    (forall z, filter (numbered num z) rs = filter (numbered num z) (snd s)) /\
    Forall2 (fun k d => exists t, value ws (fst s) k t /\ d = k ++ lit "=[" ++ t ++ lit "]") ks dl /\
    Forall2 (fun r d => exists u, snd r = Some u /\ trimmed ws u d) rs rl /\
    (dl ++ rl <> [] -> text = concat (map (fun l => l ++ [59; 10]%N) (dl ++ rl))).

(** UTF-16: what ICU counts in *)
Definition width (c : N) : nat := if N.ltb c 65536 then 1 else 2.
Definition units (w : pystr) : nat := list_sum (map width w).
(** the positions at which the pieces of a line end, in UTF-16 code units *)
Fixpoint ends (n : nat) (parts : list pystr) : list nat :=
  match parts with [] => [] | w :: parts' => n + units w :: ends (n + units w) parts' end.

(** * Lemmas: names *)
Lemma is_letter_spec c : is_letter c = true <-> letter c.
Proof.
  unfold is_letter, letter. rewrite orb_true_iff, !andb_true_iff, !N.leb_le. tauto.
Qed.
Lemma letters_spec s : Forall letter (letters s) /\ exists r, s = letters s ++ r /\ forall c p, r = c :: p -> ~ letter c.
Proof.
  induction s as [|c s [F [r [E H]]]]; cbn [letters].
  - split; [constructor|]. exists []. split; [reflexivity|]. discriminate.
  - destruct (is_letter c) eqn:L.
    + split; [constructor; [now apply is_letter_spec|exact F]|]. exists r. split; [cbn; now f_equal|exact H].
    + split; [constructor|]. exists (c :: s). split; [reflexivity|]. intros d p X. injection X as <- <-.
      intros Y. apply is_letter_spec in Y. congruence.
Qed.
Lemma letters_max ls post : Forall letter ls -> (forall c p, post = c :: p -> ~ letter c) -> letters (ls ++ post) = ls.
Proof.
  intros F P. induction F as [|c ls L F IH]; cbn [app letters].
  - destruct post as [|c p]; [reflexivity|]. cbn [letters]. destruct (is_letter c) eqn:E; [|reflexivity].
    apply is_letter_spec in E. exfalso. exact (P c p eq_refl E).
  - apply is_letter_spec in L. rewrite L. now rewrite IH.
Qed.
Lemma refs_spec t w : In w (refs t) <-> mentions t w.
Proof.
  split.
  - induction t as [|c t IH]; cbn [refs]; [intros []|]. intros I.
    assert (L : In w (refs t) -> mentions (c :: t) w).
    { intros J. destruct (IH J) as [pre [ls [post [E R]]]]. exists (c :: pre), ls, post. split; [cbn; now rewrite E|exact R]. }
    destruct (N.eqb c 36) eqn:C; [|now apply L].
    destruct (letters t) as [|d l] eqn:D; [now apply L|].
    destruct I as [<- | I]; [|now apply L].
    apply N.eqb_eq in C. subst c. destruct (letters_spec t) as [F [r [E H]]].
    exists [], (d :: l), r. rewrite D in E, F. repeat split; try assumption; try discriminate.
    cbn. now rewrite E at 1.
  - intros [pre [ls [post [E [W [NE [F P]]]]]]]. subst t w. induction pre as [|c pre IH]; cbn [app refs].
    + cbn [N.eqb Pos.eqb]. rewrite letters_max by assumption. destruct ls as [|d l]; [congruence|]. now left.
    + destruct (N.eqb c 36); [|exact IH]. destruct (letters _); [exact IH|now right].
Qed.

(** * Lemmas: str.strip() *)
Lemma lstrip_spec ws s : exists a, s = a ++ lstrip ws s /\ Forall (fun c => ws c = true) a /\ (forall c r, lstrip ws s = c :: r -> ws c = false).
Proof.
  induction s as [|c s [a [E [F H]]]]; cbn [lstrip].
  - exists []. repeat split; [constructor|discriminate].
  - destruct (ws c) eqn:W.
    + exists (c :: a). split; [cbn; now f_equal|]. split; [now constructor|exact H].
    + exists []. repeat split; [constructor|]. intros d r X. congruence.
Qed.
Lemma strip_spec ws s : trimmed ws s (strip ws s).
Proof.
  unfold strip. destruct (lstrip_spec ws s) as [a [E [F H]]]. set (m := lstrip ws s) in *.
  destruct (lstrip_spec ws (rev m)) as [b [E2 [F2 H2]]]. set (q := lstrip ws (rev m)) in *.
  assert (M : m = rev q ++ rev b). { rewrite <- rev_app_distr, <- E2. now rewrite rev_involutive. }
  exists a, (rev b). split; [rewrite E at 1; now rewrite M|]. split; [exact F|]. split; [now apply Forall_rev|]. split.
  - intros c r X. apply (H c (r ++ rev b)). rewrite M, X. reflexivity.
  - intros c r X. apply (H2 c (rev r)). rewrite <- (rev_involutive q), X, rev_app_distr. reflexivity.
Qed.

(** * Lemmas: the sorter *)
Lemma seq_iff a b : streq a b = true <-> a = b.
Proof. destruct (streq_spec a b); split; congruence. Qed.
Definition occ (n : pystr) (l : list pystr) : nat := length (filter (streq n) l).
Lemma occ_In n l : 0 < occ n l <-> In n l.
Proof.
  unfold occ. induction l as [|x l IH]; cbn [filter]; [split; [cbn; lia|intros []]|].
  destruct (streq n x) eqn:E.
  - apply seq_iff in E. subst x. split; [now left|cbn; lia].
  - split; [intros H; right; now apply IH|]. intros [->|I]; [now rewrite (proj2 (seq_iff n n) eq_refl) in E|now apply IH].
Qed.
Lemma count_dset cnt n k m : count (dset streq cnt n k) m = if streq m n then k else count cnt m.
Proof. unfold count. rewrite (dget_dset _ streq_spec). now destruct (streq m n). Qed.

Lemma release_spec : forall ss cnt q, (forall n, occ n ss <= count cnt n) ->
  exists cnt' extra, fold_left release ss (cnt, q) = (cnt', q ++ extra) /\
    (forall n, count cnt' n + occ n ss = count cnt n) /\ NoDup extra /\
    (forall n, In n extra <-> In n ss /\ count cnt n = occ n ss).
Proof.
  induction ss as [|s ss IH]; intros cnt q H.
  - exists cnt, []. cbn. rewrite app_nil_r. repeat split; try constructor; cbn; try tauto. intros n. unfold occ. cbn. lia.
  - cbn [fold_left]. unfold release at 2. cbn [fst snd].
    assert (O : forall n, occ n (s :: ss) = (if streq n s then 1 else 0) + occ n ss).
    { intros n. unfold occ. cbn [filter]. now destruct (streq n s). }
    pose proof (H s) as Hs. rewrite O, (proj2 (seq_iff s s) eq_refl) in Hs.
    set (k := count cnt s - 1).
    set (q' := if k =? 0 then q ++ [s] else q).
    destruct (IH (dset streq cnt s k) q') as [cnt' [extra [E [C [D M]]]]].
    { intros n. rewrite count_dset. specialize (H n). rewrite O in H. destruct (streq n s) eqn:X; [|lia].
      apply seq_iff in X. subst n. unfold k. lia. }
    assert (C' : forall n, count cnt' n + occ n (s :: ss) = count cnt n).
    { intros n. specialize (C n). rewrite count_dset in C. rewrite O. destruct (streq n s) eqn:X; [|lia].
      apply seq_iff in X. subst n. unfold k in C. lia. }
    assert (M' : forall n, n <> s -> (In n extra <-> In n (s :: ss) /\ count cnt n = occ n (s :: ss))).
    { intros n X. rewrite M, O, count_dset. assert (Y : streq n s = false) by (destruct (streq n s) eqn:Y; [apply seq_iff in Y; congruence|reflexivity]).
      rewrite Y. cbn [In plus]. split; [tauto|]. intros [[Z|Z] W]; [congruence|tauto]. }
    assert (Ms : In s extra <-> In s ss /\ k = occ s ss).
    { rewrite M, count_dset, (proj2 (seq_iff s s) eq_refl). tauto. }
    rewrite E. unfold q'. destruct (k =? 0) eqn:K.
    + apply Nat.eqb_eq in K. exists cnt', (s :: extra). rewrite <- app_assoc. split; [reflexivity|]. split; [exact C'|].
      assert (Z : occ s ss = 0) by (unfold k in K; lia).
      assert (NI : ~ In s ss) by (intros I; apply occ_In in I; lia).
      split; [constructor; [intros I; apply Ms in I; tauto|exact D]|].
      intros n. cbn [In]. destruct (streq s n) eqn:X.
      * apply seq_iff in X. subst n. rewrite O, (proj2 (seq_iff s s) eq_refl). unfold k in K. split; [intros _; split; [now left|lia]|now left].
      * assert (Y : n <> s) by (intros ->; rewrite (proj2 (seq_iff s s) eq_refl) in X; discriminate).
        rewrite (M' n Y). cbn [In]. split; [intros [Z'|Z']; [congruence|exact Z']|now right].
    + apply Nat.eqb_neq in K. exists cnt', extra. split; [reflexivity|]. split; [exact C'|]. split; [exact D|].
      intros n. destruct (streq s n) eqn:X.
      * apply seq_iff in X. subst n. rewrite Ms, O, (proj2 (seq_iff s s) eq_refl). unfold k in *. split.
        -- intros [I J]. split; [now right|lia].
        -- intros [_ J]. assert (P : 0 < occ s ss) by lia. apply occ_In in P. split; [exact P|lia].
      * apply M'. intros ->. rewrite (proj2 (seq_iff s s) eq_refl) in X. discriminate.
Qed.

Definition inb (l : list pystr) (x : pystr) : bool := existsb (streq x) l.
Lemma inb_spec l x : inb l x = true <-> In x l.
Proof.
  unfold inb. rewrite existsb_exists. split.
  - intros [y [I E]]. apply seq_iff in E. now subst y.
  - intros I. exists x. split; [exact I|now apply seq_iff].
Qed.
Lemma inb_false l x : inb l x = false <-> ~ In x l.
Proof. rewrite <- inb_spec. destruct (inb l x); split; congruence. Qed.
(** how many predecessors are still waited for *)
Definition pend (es : list (pystr * pystr)) (out : list pystr) (n : pystr) : nat :=
  length (filter (fun e => streq (fst e) n && negb (inb out (snd e))) es).
Lemma pend_nil es n : pend es [] n = npred es n.
Proof.
  unfold pend, npred. f_equal. apply filter_ext. intros e. cbn. now rewrite andb_true_r.
Qed.
Lemma pend_step es out p n : ~ In p out -> pend es (out ++ [p]) n + occ n (succs es p) = pend es out n.
Proof.
  intros NI. unfold pend, occ, succs. induction es as [|[a b] es IH]; cbn [filter map fst snd]; [reflexivity|].
  assert (X : inb (out ++ [p]) b = inb out b || streq b p).
  { unfold inb. rewrite existsb_app. cbn. now rewrite orb_false_r. }
  rewrite X. destruct (streq b p) eqn:B.
  - apply seq_iff in B. subst b. assert (Y : inb out p = false) by now apply inb_false.
    rewrite Y. cbn [orb negb map fst filter]. rewrite andb_false_r, andb_true_r.
    replace (streq n a) with (streq a n).
    + destruct (streq a n); cbn [length]; lia.
    + destruct (streq n a) eqn:S1; destruct (streq a n) eqn:S2; try reflexivity.
      * apply seq_iff in S1. subst a. now rewrite (proj2 (seq_iff n n) eq_refl) in S2.
      * apply seq_iff in S2. subst a. now rewrite (proj2 (seq_iff n n) eq_refl) in S1.
  - rewrite orb_false_r. destruct (streq a n && negb (inb out b)); cbn [length]; lia.
Qed.
Lemma pend_zero es out n : pend es out n = 0 <-> forall p, In (n, p) es -> In p out.
Proof.
  unfold pend. rewrite length_zero_iff_nil. split.
  - intros E p I. destruct (inb out p) eqn:X; [now apply inb_spec|].
    assert (J : In (n, p) (filter (fun e => streq (fst e) n && negb (inb out (snd e))) es)).
    { apply filter_In. split; [exact I|]. cbn. rewrite X, (proj2 (seq_iff n n) eq_refl). reflexivity. }
    rewrite E in J. destruct J.
  - intros H. destruct (filter _ es) as [|[a b] r] eqn:E; [reflexivity|]. exfalso.
    assert (J : In (a, b) (filter (fun e => streq (fst e) n && negb (inb out (snd e))) es)) by (rewrite E; now left).
    apply filter_In in J. destruct J as [I T]. cbn in T. apply andb_true_iff in T. destruct T as [T1 T2].
    apply seq_iff in T1. subst a. apply H in I. apply inb_spec in I. rewrite I in T2. discriminate.
Qed.

Lemma NoDup_app_iff_ (A : Type) (l m : list A) : NoDup (l ++ m) <-> NoDup l /\ NoDup m /\ (forall x, In x l -> In x m -> False).
Proof.
  induction l as [|x l IH]; cbn [app].
  - split; [intros H; repeat split; [constructor|exact H|intros x []]|tauto].
  - rewrite !NoDup_cons_iff, IH, in_app_iff. split.
    + intros [H [H1 [H2 H3]]]. repeat split; try tauto. intros y [<-|I] J; [tauto|eauto].
    + intros [[H1 H2] [H3 H4]]. repeat split; try assumption.
      * intros [I|I]; [tauto|exact (H4 x (or_introl eq_refl) I)].
      * intros y I J. exact (H4 y (or_intror I) J).
Qed.

Section Sorter.
Variable ns : list pystr.
Variable es : list (pystr * pystr).
Hypothesis NDn : NoDup ns.
Hypothesis closed : forall a b, In (a, b) es -> In a ns /\ In b ns.

Record inv (cnt : list (pystr * nat)) (queue out : list pystr) : Prop := {
  i_nodup : NoDup (out ++ queue);
  i_in : forall n, In n (out ++ queue) <-> In n ns /\ pend es out n = 0;
  i_cnt : forall n, In n ns -> count cnt n = pend es out n;
  i_topo : forall a n b, out = a ++ n :: b -> forall p, In (n, p) es -> In p a }.

Lemma succs_in p n : In n (succs es p) <-> In (n, p) es.
Proof.
  unfold succs. rewrite in_map_iff. split.
  - intros [[a b] [E I]]. apply filter_In in I. destruct I as [I T]. cbn in *. apply seq_iff in T. now subst.
  - intros I. exists (n, p). split; [reflexivity|]. apply filter_In. split; [exact I|]. now apply seq_iff.
Qed.

Lemma count_total : forall cnt queue out p, inv cnt (p :: queue) out -> forall n, occ n (succs es p) <= count cnt n.
Proof.
  intros cnt queue out p V n. destruct (Nat.eq_dec (occ n (succs es p)) 0) as [Z|Z]; [lia|].
  assert (I : In n (succs es p)) by (apply occ_In; lia). apply succs_in in I.
  rewrite (i_cnt _ _ _ V n) by (now apply closed in I).
  pose proof (i_nodup _ _ _ V) as D. apply NoDup_remove_2 in D.
  pose proof (pend_step es out p n) as S1. rewrite in_app_iff in D. specialize (S1 ltac:(tauto)). lia.
Qed.

Lemma step cnt queue out p : inv cnt (p :: queue) out ->
  exists cnt' extra, fold_left release (succs es p) (cnt, queue) = (cnt', queue ++ extra) /\ inv cnt' (queue ++ extra) (out ++ [p]).
Proof.
  intros V. destruct (release_spec (succs es p) cnt queue (count_total _ _ _ _ V)) as [cnt' [extra [E [C [D M]]]]].
  exists cnt', extra. split; [exact E|].
  assert (NI : ~ In p out).
  { pose proof (i_nodup _ _ _ V) as X. apply NoDup_remove_2 in X. rewrite in_app_iff in X. tauto. }
  assert (PS := fun n => pend_step es out p n NI).
  assert (CN : forall n, In n ns -> count cnt' n = pend es (out ++ [p]) n).
  { intros n I. specialize (C n). specialize (PS n). rewrite (i_cnt _ _ _ V n I) in C. lia. }
  assert (X : forall n, In n extra <-> (In n ns /\ pend es (out ++ [p]) n = 0) /\ pend es out n <> 0).
  { intros n. rewrite M. split.
    - intros [I J]. pose proof (proj1 (occ_In n _) I) as O1 || idtac.
      assert (O : 0 < occ n (succs es p)) by now apply occ_In. apply succs_in in I. apply closed in I. destruct I as [I _].
      rewrite (i_cnt _ _ _ V n I) in J. specialize (PS n). split; [split; [exact I|]|]; lia.
    - intros [[I J] K]. specialize (PS n). rewrite (i_cnt _ _ _ V n I). split; [apply occ_In|]; lia. }
  assert (MONO : forall n, pend es out n = 0 -> pend es (out ++ [p]) n = 0) by (intros n Z; specialize (PS n); lia).
  constructor.
  - rewrite <- app_assoc. cbn [app]. rewrite app_comm_cons, app_assoc. apply NoDup_app_iff_. 
    split; [exact (i_nodup _ _ _ V)|]. split; [exact D|]. intros n I J. apply X in J. apply (i_in _ _ _ V) in I. tauto.
  - intros n. rewrite <- app_assoc. cbn [app]. rewrite app_comm_cons, app_assoc, in_app_iff, (i_in _ _ _ V), X. split.
    + intros [[I J]|[[I J] K]]; split; auto.
    + intros [I J]. destruct (Nat.eq_dec (pend es out n) 0); [left|right]; tauto.
  - exact CN.
  - intros a n b O q I. destruct b as [|y b] using rev_ind.
    + apply app_inj_tail in O. destruct O as [<- <-].
      assert (Z : pend es out p = 0).
      { apply (i_in _ _ _ V p). apply in_or_app. right. now left. }
      exact (proj1 (pend_zero es out p) Z q I).
    + rewrite app_comm_cons, app_assoc in O. apply app_inj_tail in O. destruct O as [O _].
      exact (i_topo _ _ _ V a n b O q I).
Qed.
Lemma drain_inv : forall fuel cnt queue out, inv cnt queue out ->
  exists cnt' queue', inv cnt' queue' (drain es fuel cnt queue out) /\ (queue' = [] \/ length (drain es fuel cnt queue out) = fuel + length out).
Proof.
  induction fuel as [|fuel IH]; intros cnt queue out V; cbn [drain]; [exists cnt, queue; split; [exact V|now right]|].
  destruct queue as [|p queue]; [exists cnt, []; split; [exact V|now left]|].
  destruct (step _ _ _ _ V) as [cnt' [extra [E V']]]. rewrite E. cbn [fst snd].
  destruct (IH _ _ _ V') as [c2 [q2 [V2 L]]]. exists c2, q2. split; [exact V2|]. destruct L as [L|L]; [now left|right].
  rewrite L, app_length. cbn. lia.
Qed.

Lemma count_init n : In n ns -> count (map (fun n => (n, npred es n)) ns) n = npred es n.
Proof.
  clear NDn closed. unfold count. induction ns as [|x l IH]; cbn [map dget]; [intros []|]. intros I.
  destruct (streq n x) eqn:E; [apply seq_iff in E; now subst|]. apply IH. destruct I as [->|I]; [|exact I].
  now rewrite (proj2 (seq_iff n n) eq_refl) in E.
Qed.
Lemma inv_init : inv (map (fun n => (n, npred es n)) ns) (filter (fun n => npred es n =? 0) ns) [].
Proof.
  constructor; cbn [app].
  - now apply NoDup_filter.
  - intros n. rewrite filter_In, Nat.eqb_eq, pend_nil. reflexivity.
  - intros n I. now rewrite pend_nil, count_init.
  - intros a n b E. destruct a; discriminate.
Qed.
Definition edge (a b : pystr) : Prop := In (a, b) es.

Lemma loop_cycle (R : pystr -> pystr -> Prop) (T : forall a b c, R a b -> R b c -> R a c) : forall L, L <> [] ->
  (forall x, In x L -> exists y, In y L /\ R x y) -> exists x, R x x.
Proof.
  induction L as [|x L IH]; intros NE H; [congruence|].
  destruct (H x (or_introl eq_refl)) as [z [[<-|Iz] Rz]]; [now exists x|].
  apply IH; [intros ->; destruct Iz|]. intros y Iy. destruct (H y (or_intror Iy)) as [w [[<-|Iw] Rw]]; [|now exists w].
  exists z. split; [exact Iz|]. now apply (T y x z).
Qed.

Lemma static_order_spec :
  match static_order (ns, es) with
  | Ok out => Permutation out ns /\ (forall a n b, out = a ++ n :: b -> forall p, edge n p -> In p a)
  | Raise e => e = ValueError /\ exists a, clos_trans pystr edge a a
  end.
Proof.
  unfold static_order. cbn [fst snd].
  destruct (drain_inv (length ns) _ _ _ inv_init) as [cnt [queue [V L]]].
  set (out := drain es (length ns) _ _ _) in *.
  assert (IN : incl out ns).
  { intros n I. apply (i_in _ _ _ V n). apply in_or_app. now left. }
  assert (ND : NoDup out) by (pose proof (i_nodup _ _ _ V) as D; apply NoDup_app_iff_ in D; tauto).
  destruct (length out =? length ns) eqn:E.
  - apply Nat.eqb_eq in E. split.
    + apply NoDup_Permutation_bis; [exact ND|lia|exact IN].
    + exact (i_topo _ _ _ V).
  - apply Nat.eqb_neq in E. split; [reflexivity|].
    destruct L as [->|L]; [|rewrite Nat.add_0_r in L; congruence].
    assert (II : forall n, In n out <-> In n ns /\ pend es out n = 0) by (intros n; pose proof (i_in _ _ _ V n) as II; now rewrite app_nil_r in II).
    set (left := filter (fun n => negb (inb out n)) ns).
    apply (loop_cycle (clos_trans pystr edge)) with (L := left).
    + intros a b c. apply t_trans.
    + intros Z. apply E. apply Nat.le_antisymm; [now apply NoDup_incl_length|]. apply NoDup_incl_length; [exact NDn|].
      intros n I. destruct (inb out n) eqn:B; [now apply inb_spec|]. exfalso.
      assert (J : In n left) by (apply filter_In; split; [exact I|now rewrite B]). rewrite Z in J. destruct J.
    + intros x I. apply filter_In in I. destruct I as [I B]. apply negb_true_iff, inb_false in B.
      unfold pend in II.
      destruct (filter (fun e => streq (fst e) x && negb (inb out (snd e))) es) as [|[a b] r] eqn:F.
      * exfalso. apply B. apply II. split; [exact I|]. now rewrite F.
      * assert (J : In (a, b) (filter (fun e => streq (fst e) x && negb (inb out (snd e))) es)) by (rewrite F; now left).
        apply filter_In in J. destruct J as [J T]. cbn in T. apply andb_true_iff in T. destruct T as [T1 T2].
        apply seq_iff in T1. subst a. exists b. split; [|now apply t_step].
        apply filter_In. split; [now apply closed in J|exact T2].
Qed.
(** in an order where each node follows those it needs there is no cycle *)
Lemma order_acyclic out : NoDup out -> (forall x, In x ns -> In x out) ->
  (forall a n b, out = a ++ n :: b -> forall p, edge n p -> In p a) -> ~ exists a, clos_trans pystr edge a a.
Proof.
  intros ND ALL T [x C].
  assert (H : forall n p, clos_trans pystr edge n p -> forall a b, out = a ++ n :: b -> In p a).
  { induction 1 as [n p E|n m p C1 IH1 C2 IH2]; intros a b O; [now apply (T a n b O)|].
    pose proof (IH1 a b O) as I. apply in_split in I. destruct I as [a1 [a2 ->]].
    rewrite <- app_assoc in O. cbn [app] in O. pose proof (IH2 _ _ O) as I. apply in_or_app. now left. }
  assert (I : In x ns).
  { clear H. apply clos_trans_tn1 in C. assert (forall y, clos_trans_n1 pystr edge x y -> In y ns).
    { intros y D. destruct D as [z E|z w E]; now apply closed in E. } auto. }
  apply ALL in I. apply in_split in I. destruct I as [a [b O]]. pose proof (H x x C a b O) as I.
  rewrite O in ND. apply NoDup_remove_2 in ND. apply ND. apply in_or_app. now left.
Qed.
End Sorter.

(** * Lemmas: the variables *)
Lemma add_node_spec ns n : NoDup ns -> NoDup (add_node ns n) /\ forall x, In x (add_node ns n) <-> In x ns \/ x = n.
Proof.
  intros ND. unfold add_node. fold (inb ns n). destruct (inb ns n) eqn:E.
  - apply inb_spec in E. split; [exact ND|]. intros x. split; [now left|]. intros [I| ->]; assumption.
  - apply inb_false in E. split.
    + apply NoDup_app_iff_. split; [exact ND|]. split; [constructor; [intros []|constructor]|]. intros x I [<-|[]]. tauto.
    + intros x. rewrite in_app_iff. cbn. split; intros [H|H]; try (now left); right; [destruct H as [<-|[]]; reflexivity|now left].
Qed.
Definition good (g : graph) : Prop := NoDup (fst g) /\ forall a b, In (a, b) (snd g) -> In a (fst g) /\ In b (fst g).
Lemma edges_spec i ms : forall g, good g -> In i (fst g) ->
  good (fold_left (fun g m => add_edge g i m) ms g) /\
  (forall x, In x (fst (fold_left (fun g m => add_edge g i m) ms g)) <-> In x (fst g) \/ In x ms) /\
  (forall a b, In (a, b) (snd (fold_left (fun g m => add_edge g i m) ms g)) <-> In (a, b) (snd g) \/ a = i /\ In b ms).
Proof.
  induction ms as [|m ms IH]; intros [ns es] [ND CL] I; cbn [fold_left].
  - split; [now split|]. cbn. split; intros; tauto.
  - cbn [fst snd] in *. unfold add_edge at 2 4 6. cbn [fst snd].
    destruct (add_node_spec ns i ND) as [N1 S1]. destruct (add_node_spec _ m N1) as [N2 S2].
    set (ns2 := add_node (add_node ns i) m) in *.
    assert (S3 : forall x, In x ns2 <-> In x ns \/ x = m).
    { intros x. rewrite S2, S1. split; [intros [[H| ->]|H]; auto|intros [H|H]; auto]. }
    destruct (IH (ns2, es ++ [(i, m)])) as [G [A B]].
    { split; cbn [fst snd]; [exact N2|]. intros a b J. apply in_app_iff in J. rewrite !S3. destruct J as [J|[J|[]]].
      - apply CL in J. tauto.
      - injection J as <- <-. tauto. }
    { cbn. apply S3. now left. }
    cbn [fst snd] in *. split; [exact G|]. split.
    + intros x. rewrite A, S3. cbn [In]. split; [intros [[H|H]|H]; auto|intros [H|[H|H]]; auto].
    + intros a b. rewrite B, in_app_iff. cbn [In]. split.
      * intros [[H|[H|[]]]|[H H']]; auto. injection H as <- <-. auto.
      * intros [H|[-> [->|H]]]; auto.
Qed.

Section Main.
Context (ws : N -> bool) (num : pystr -> option Z).
Definition texted (vs : list var) : Prop := forall k, ~ In (k, None) vs.

Lemma named_app a b k : named (a ++ b) k <-> named a k \/ named b k.
Proof. unfold named. split; [intros [t I]; apply in_app_iff in I; destruct I; eauto|intros [[t I]|[t I]]; exists t; apply in_or_app; auto]. Qed.
Lemma uses_app a b x y : uses (a ++ b) x y <-> uses a x y \/ uses b x y.
Proof.
  unfold uses. split.
  - intros [t [I M]]. apply in_app_iff in I. destruct I; [left|right]; eauto.
  - intros [[t [I M]]|[t [I M]]]; exists t; rewrite in_app_iff; auto.
Qed.

Record built (pre : list var) (st : list (pystr * pystr) * graph) : Prop := {
  b_good : good (snd st);
  b_nodes : forall x, In x (fst (snd st)) <-> named pre x \/ exists a, uses pre a x;
  b_edges : forall a b, In (a, b) (snd (snd st)) <-> uses pre a b;
  b_vars : forall k t, dget streq (fst st) k = Some t -> value ws pre k t;
  b_dom : forall k, dget streq (fst st) k = None <-> ~ named pre k }.

Lemma built_step pre st k t : built pre st -> exists st', add_var ws st (k, Some t) = Ok st' /\ built (pre ++ [(k, Some t)]) st'.
Proof.
  intros B. unfold add_var. cbn [snd fst]. destruct st as [vars [ns es]]. cbn [fst snd].
  destruct (b_good _ _ B) as [ND CL]. cbn [fst snd] in ND, CL.
  destruct (add_node_spec ns k ND) as [N1 S1].
  destruct (edges_spec k (refs t) (add_node ns k, es)) as [G [A E]].
  { split; cbn [fst snd]; [exact N1|]. intros a b I. rewrite !S1. apply CL in I. tauto. }
  { cbn. apply S1. now right. }
  cbn [fst snd] in A, E. eexists. split; [reflexivity|].
  assert (U1 : forall a b, uses [(k, Some t)] a b <-> a = k /\ mentions t b).
  { intros a b. unfold uses. split; [intros [u [[I|[]] M]]; injection I as <- <-; auto|intros [-> M]; exists t; split; [now left|exact M]]. }
  assert (N0 : forall x, named [(k, Some t)] x <-> x = k).
  { intros x. unfold named. split; [intros [u [I|[]]]; now injection I as <- <-|intros ->; exists (Some t); now left]. }
  constructor; cbn [fst snd].
  - exact G.
  - intros x. rewrite A, S1, named_app, N0. pose proof (b_nodes _ _ B x) as Q. cbn [fst snd] in Q. rewrite Q, refs_spec. split.
    + intros [[[H|[a H]]|H]|H]; auto.
      * right. exists a. apply uses_app. now left.
      * right. exists k. apply uses_app. right. now apply U1.
    + intros [[H|H]|[a H]]; auto. apply uses_app in H. destruct H as [H|H]; [left; left; right; now exists a|]. apply U1 in H. now right.
  - intros a b. rewrite E, uses_app, U1, refs_spec. pose proof (b_edges _ _ B a b) as Q. cbn [fst snd] in Q. now rewrite Q.
  - intros j u. rewrite (dget_dset _ streq_spec). destruct (streq j k) eqn:J.
    + apply seq_iff in J. subst j. intros X. injection X as <-. exists pre, t, []. repeat split; [|apply strip_spec].
      intros [w []].
    + intros X. pose proof (b_vars _ _ B j u X) as [a [v [b [V1 [V2 V3]]]]].
      exists a, v, (b ++ [(k, Some t)]). subst pre. split; [now rewrite <- app_assoc|]. split; [|exact V3].
      rewrite named_app, N0. intros [H|H]; [tauto|]. subst j. now rewrite (proj2 (seq_iff k k) eq_refl) in J.
  - intros j. rewrite (dget_dset _ streq_spec), named_app, N0. destruct (streq j k) eqn:J.
    + apply seq_iff in J. subst j. split; [discriminate|tauto].
    + pose proof (b_dom _ _ B j) as Q. cbn [fst snd] in Q. rewrite Q.
      assert (j <> k) by (intros ->; now rewrite (proj2 (seq_iff k k) eq_refl) in J). tauto.
Qed.
Lemma built_nil : built [] ([], ([], [])).
Proof.
  constructor; cbn.
  - split; cbn; [constructor|tauto].
  - intros x. split; [intros []|]. intros [[t []]|[a [t [[] _]]]].
  - intros a b. split; [intros []|]. intros [t [[] _]].
  - discriminate.
  - intros k. split; [intros _ [t []]|reflexivity].
Qed.
Lemma add_vars_spec vs : forall pre st, built pre st ->
  match add_vars ws st vs with
  | Ok st' => texted vs /\ built (pre ++ vs) st'
  | Raise e => e = AttributeError /\ ~ texted vs
  end.
Proof.
  induction vs as [|[k [t|]] vs IH]; intros pre st B; cbn [add_vars].
  - rewrite app_nil_r. split; [intros k []|exact B].
  - destruct (built_step pre st k t B) as [st' [-> B']]. cbn [bind]. specialize (IH _ _ B').
    destruct (add_vars ws st' vs) as [st2|e].
    + destruct IH as [T B2]. rewrite <- app_assoc in B2. split; [|exact B2]. intros j [I|I]; [discriminate|exact (T j I)].
    + destruct IH as [E T]. split; [exact E|]. intros X. apply T. intros j I. apply (X j). now right.
  - cbn. split; [reflexivity|]. intros X. apply (X k). now left.
Qed.

Lemma var_lines_spec vars ks :
  match var_lines vars ks with
  | Ok l => Forall2 (fun k d => exists t, dget streq vars k = Some t /\ d = k ++ lit "=[" ++ t ++ lit "]") ks l
  | Raise e => e = KeyError /\ exists k, In k ks /\ dget streq vars k = None
  end.
Proof.
  induction ks as [|k ks IH]; cbn [var_lines]; [constructor|].
  destruct (dget streq vars k) as [t|] eqn:G.
  - destruct (var_lines vars ks) as [l|e]; cbn [bind].
    + constructor; [|exact IH]. exists t. split; [exact G|reflexivity].
    + destruct IH as [E [j [I J]]]. split; [exact E|]. exists j. split; [now right|exact J].
  - split; [reflexivity|]. exists k. split; [now left|exact G].
Qed.
Lemma keyed_spec rs :
  match keyed num rs with
  | Ok l => map snd l = rs /\ Forall (fun p => number num (snd p) = Some (fst p)) l
  | Raise e => exists r, In r rs /\ number num r = None
  end.
Proof.
  induction rs as [|[[i|] t] rs IH]; cbn [keyed fst]; [split; constructor| |].
  - destruct (num i) as [z|] eqn:Z.
    + destruct (keyed num rs) as [l|e]; cbn [bind].
      * destruct IH as [<- F]. split; [reflexivity|]. constructor; [exact Z|exact F].
      * destruct IH as [r [I J]]. exists r. split; [now right|exact J].
    + exists (Some i, t). split; [now left|exact Z].
  - exists (None, t). split; [now left|reflexivity].
Qed.
Lemma rule_lines_spec rs :
  match rule_lines ws rs with
  | Ok l => Forall2 (fun r d => exists u, snd r = Some u /\ trimmed ws u d) (map snd rs) l
  | Raise e => e = AttributeError /\ exists r, In r (map snd rs) /\ snd r = None
  end.
Proof.
  induction rs as [|[z [i [t|]]] rs IH]; cbn [rule_lines snd map]; [constructor| |].
  - destruct (rule_lines ws rs) as [l|e]; cbn [bind].
    + constructor; [|exact IH]. exists t. split; [reflexivity|apply strip_spec].
    + destruct IH as [E [r [I J]]]. split; [exact E|]. exists r. split; [now right|exact J].
  - split; [reflexivity|]. exists (i, None). split; [now left|reflexivity].
Qed.
Lemma join_eol ls : ls <> [] -> join eol ls ++ eol = concat (map (fun l => l ++ [59; 10]%N) ls).
Proof.
  induction ls as [|l ls IH]; [congruence|]. intros _. destruct ls as [|m ls].
  - cbn. now rewrite app_nil_r.
  - change (join eol (l :: m :: ls)) with (l ++ eol ++ join eol (m :: ls)).
    change (concat (map (fun l => l ++ [59; 10]%N) (l :: m :: ls))) with ((l ++ eol) ++ concat (map (fun l => l ++ [59; 10]%N) (m :: ls))).
    rewrite <- IH by discriminate. now rewrite <- !app_assoc.
Qed.
Lemma sort_facts l : Forall (fun p => number num (snd p) = Some (fst p)) l ->
  StronglySorted (rising num) (map snd (isort byz l)) /\
  (forall z, filter (numbered num z) (map snd (isort byz l)) = filter (numbered num z) (map snd l)).
Proof.
  intros F. assert (FF : forall m : list (Z * rule), filter (numbered num 0) (map snd m) = filter (numbered num 0) (map snd m)) by reflexivity.
  split.
  - assert (SS : StronglySorted (fun a b => byz a b = true) (isort byz l)).
    { apply isort_sorted; unfold byz; [intros a b; rewrite !Z.leb_le; lia|intros a b c; rewrite !Z.leb_le; lia]. }
    assert (G : Forall (fun p => number num (snd p) = Some (fst p)) (isort byz l)).
    { apply Forall_forall. intros p I. apply in_isort in I. rewrite Forall_forall in F. now apply F. }
    clear F FF. induction SS as [|p m S1 IH H]; cbn [map]; [constructor|]. inversion G as [|? ? G1 G2]. subst.
    constructor; [now apply IH|]. apply Forall_forall. intros r I. apply in_map_iff in I. destruct I as [q [<- I]].
    rewrite Forall_forall in H, G2. specialize (H q I). specialize (G2 q I). exists (fst p), (fst q).
    repeat split; try assumption. unfold byz in H. now apply Z.leb_le in H.
  - intros z. assert (FM : forall m : list (Z * rule), filter (numbered num z) (map snd m) = map snd (filter (fun p => numbered num z (snd p)) m)).
    { induction m as [|p m IH]; cbn [map filter]; [reflexivity|]. destruct (numbered num z (snd p)); cbn [map]; now rewrite IH. }
    rewrite !FM. f_equal.
    assert (EX : forall m, Forall (fun p => number num (snd p) = Some (fst p)) m ->
      filter (fun p : Z * rule => numbered num z (snd p)) m = filter (fun p => Z.eqb (fst p) z) m).
    { clear. induction 1 as [|p m H F IH]; cbn [filter]; [reflexivity|]. unfold numbered at 1. rewrite H. now rewrite IH. }
    rewrite !EX; [|exact F|].
    + apply (isort_stable byz). intros x y X Y. apply Z.eqb_eq in X, Y. unfold byz. apply Z.leb_le. lia.
    + apply Forall_forall. intros p I. apply in_isort in I. rewrite Forall_forall in F. now apply F.
Qed.

(** * The text of the rules *)
Definition complete (s : segmentation) : Prop :=
  texted (fst s) /\ ~ cyclic (fst s) /\ (forall a b, uses (fst s) a b -> named (fst s) b) /\
  (forall r, In r (snd s) -> number num r <> None /\ snd r <> None).

Lemma trans_ext (R Q : pystr -> pystr -> Prop) : (forall a b, R a b -> Q a b) -> forall a b, clos_trans pystr R a b -> clos_trans pystr Q a b.
Proof. intros H a b C. induction C as [a b E|a b c C1 I1 C2 I2]; [apply t_step; auto|now apply t_trans with b]. Qed.

Lemma all_cases s :
  match rules_text ws num s with
  | Ok text => complete s /\ well_made ws num s text
  | Raise e => ~ complete s /\ (~ texted (fst s) -> e = AttributeError) /\
      (texted (fst s) -> cyclic (fst s) -> e = ValueError) /\
      (texted (fst s) -> ~ cyclic (fst s) -> (exists a b, uses (fst s) a b /\ ~ named (fst s) b) -> e = KeyError)
  end.
Proof.
  unfold rules_text. pose proof (add_vars_spec (fst s) [] _ built_nil) as A.
  destruct (add_vars ws ([], ([], [])) (fst s)) as [[vars [ns es]]|e]; cbn [bind].
  2: { destruct A as [-> T]. split; [intros [X _]; tauto|]. split; [reflexivity|]. split; intros; tauto. }
  destruct A as [T B]. cbn [app] in B. cbn [fst snd]. destruct (b_good _ _ B) as [ND CL]. cbn [fst snd] in ND, CL.
  pose proof (b_nodes _ _ B) as BN. pose proof (b_edges _ _ B) as BE. pose proof (b_vars _ _ B) as BV. pose proof (b_dom _ _ B) as BD.
  cbn [fst snd] in BN, BE, BV, BD.
  pose proof (static_order_spec ns es ND CL) as O.
  destruct (static_order (ns, es)) as [ks|e]; cbn [bind].
  2: { destruct O as [-> [x C]]. assert (CY : cyclic (fst s)).
       { exists x. revert C. apply trans_ext. intros a b E. now apply BE. }
       split; [intros [_ [X _]]; tauto|]. split; [intros; tauto|]. split; [reflexivity|]. intros; tauto. }
  destruct O as [P TO].
  assert (NK : NoDup ks) by (apply Permutation_NoDup with ns; [now apply Permutation_sym|exact ND]).
  assert (IK : forall x, In x ks <-> In x ns).
  { intros x. split; apply Permutation_in; [exact P|now apply Permutation_sym]. }
  assert (AC : ~ cyclic (fst s)).
  { intros [x C]. apply (order_acyclic ns es CL ks NK (fun x => proj2 (IK x)) TO). exists x. revert C. apply trans_ext. intros a b U. now apply BE. }
  pose proof (var_lines_spec vars ks) as VL. destruct (var_lines vars ks) as [vl|e]; cbn [bind].
  2: { destruct VL as [-> [k [I G]]]. apply IK, BN in I. apply BD in G. destruct I as [I|[a U]]; [tauto|].
       split; [intros [_ [_ [X _]]]; apply G; now apply (X a)|]. split; [intros; tauto|]. split; [intros; tauto|]. reflexivity. }
  assert (DEF : forall k, In k ks -> named (fst s) k).
  { intros k I. destruct (dget streq vars k) as [t|] eqn:G.
    - destruct (BV k t G) as [a [u [b [E _]]]]. exists (Some u). rewrite E. apply in_or_app. right. now left.
    - exfalso. clear - VL I G. induction VL as [|k' d ks l [t [X _]] F IH]; [destruct I|]. destruct I as [->|I]; [congruence|auto]. }
  assert (UD : forall a b, uses (fst s) a b -> named (fst s) b).
  { intros a b U. apply DEF, IK, BN. right. now exists a. }
  assert (REST : forall e : exn, ~ complete s ->
    ~ complete s /\ (~ texted (fst s) -> e = AttributeError) /\ (texted (fst s) -> cyclic (fst s) -> e = ValueError) /\
      (texted (fst s) -> ~ cyclic (fst s) -> (exists a b, uses (fst s) a b /\ ~ named (fst s) b) -> e = KeyError)).
  { intros e NC. split; [exact NC|]. split; [intros; tauto|]. split; [intros; tauto|]. intros _ _ [a [b [U N0]]]. exfalso. eauto. }
  pose proof (keyed_spec (snd s)) as KS. destruct (keyed num (snd s)) as [kr|e]; cbn [bind].
  2: { apply REST. intros [_ [_ [_ X]]]. destruct KS as [r [I J]]. destruct (X r I). tauto. }
  destruct KS as [KM KF].
  pose proof (rule_lines_spec (isort byz kr)) as RL.
  assert (PR : Permutation (map snd (isort byz kr)) (snd s)).
  { rewrite <- KM. apply Permutation_map. apply Permutation_sym, isort_perm. }
  destruct (rule_lines ws (isort byz kr)) as [rl|e]; cbn [bind].
  2: { apply REST. intros [_ [_ [_ X]]]. destruct RL as [_ [r [I J]]]. apply (Permutation_in _ PR) in I. destruct (X r I). tauto. }
  destruct (sort_facts kr KF) as [SO ST]. rewrite KM in ST.
  split.
  - repeat split; try assumption.
    + intros E. rewrite <- KM in H. apply in_map_iff in H. destruct H as [p [<- I]]. rewrite Forall_forall in KF. rewrite (KF p I) in E. discriminate.
    + intros E. apply (Permutation_in _ (Permutation_sym PR)) in H. clear - RL H E. revert RL H. generalize (map snd (isort byz kr)). intros l RL I.
      induction RL as [|r' d l m [u [X _]] F IH]; [destruct I|]. destruct I as [->|I]; [congruence|auto].
  - exists ks, (map snd (isort byz kr)), vl, rl. split; [exact NK|]. split; [|split; [|split; [|split; [|split; [|split; [|split]]]]]]; try assumption.
    + intros k. split; [apply DEF|]. intros N0. apply IK, BN. now left.
    + intros a b U. assert (I : In a ks) by (apply IK; apply BE in U; now apply CL in U).
      apply in_split in I. destruct I as [l1 [l2 E]]. pose proof (TO l1 a l2 E b (proj2 (BE a b) U)) as J.
      apply in_split in J. destruct J as [l3 [l4 ->]]. exists l3, l4, l2. rewrite E, <- app_assoc. reflexivity.
    + clear - VL BV. induction VL as [|k d ks l [t [X Y]] F IH]; [constructor|]. constructor; [|exact IH]. exists t. split; [now apply BV|exact Y].
    + apply join_eol.
Qed.

Theorem C83_text s text : rules_text ws num s = Ok text -> well_made ws num s text.
Proof. intros E. pose proof (all_cases s) as A. rewrite E in A. apply A. Qed.

Theorem C83_made s : (exists text, rules_text ws num s = Ok text) <-> complete s.
Proof.
  pose proof (all_cases s) as A. destruct (rules_text ws num s) as [t|e]; split.
  - intros _. apply A.
  - intros _. now exists t.
  - intros [t E]. discriminate.
  - intros C. destruct A as [N0 _]. tauto.
Qed.
Theorem C83_cycle s : texted (fst s) -> cyclic (fst s) -> rules_text ws num s = Raise ValueError.
Proof.
  intros T C. pose proof (all_cases s) as A. destruct (rules_text ws num s) as [t|e].
  - destruct A as [[_ [X _]] _]. tauto.
  - destruct A as [_ [_ [X _]]]. f_equal. auto.
Qed.
Theorem C83_undefined s : texted (fst s) -> ~ cyclic (fst s) -> (exists a b, uses (fst s) a b /\ ~ named (fst s) b) ->
  rules_text ws num s = Raise KeyError.
Proof.
  intros T C U. pose proof (all_cases s) as A. destruct (rules_text ws num s) as [t|e].
  - destruct A as [[_ [_ [X _]]] _]. destruct U as [a [b [U N0]]]. exfalso. eauto.
  - destruct A as [_ [_ [_ X]]]. f_equal. auto.
Qed.

(** * The pieces *)
Lemma lstrip_ws a s : Forall (fun c => ws c = true) a -> lstrip ws (a ++ s) = lstrip ws s.
Proof. induction 1 as [|c a W F IH]; cbn [app lstrip]; [reflexivity|]. now rewrite W. Qed.
Lemma lstrip_keep s : (forall c r, s = c :: r -> ws c = false) -> lstrip ws s = s.
Proof. intros H. destruct s as [|c r]; cbn [lstrip]; [reflexivity|]. now rewrite (H c r eq_refl). Qed.
Lemma trimmed_strip u t : trimmed ws u t -> t = strip ws u.
Proof.
  intros [a [b [-> [A [B [H1 H2]]]]]]. unfold strip. rewrite lstrip_ws by exact A. destruct t as [|c r].
  - cbn [app]. rewrite <- (app_nil_r b), lstrip_ws by exact B. reflexivity.
  - rewrite (lstrip_keep ((c :: r) ++ b)).
    + rewrite rev_app_distr, lstrip_ws by (now apply Forall_rev). rewrite lstrip_keep; [now rewrite rev_involutive|].
      intros d q X. apply (H2 d (rev q)). rewrite <- (rev_involutive (c :: r)), X. reflexivity.
    + intros d q X. injection X as <- _. now apply (H1 c r).
Qed.
Lemma slice_join (a b c : nat) (l : pystr) : a <= b -> b <= c -> slice a b l ++ slice b c l = slice a c l.
Proof.
  intros AB BC. unfold slice. set (m := firstn c l).
  assert (E : firstn b l = firstn b m) by (unfold m; rewrite firstn_firstn; now rewrite Nat.min_l by lia).
  rewrite E. rewrite <- (firstn_skipn b m) at 3. rewrite skipn_app, firstn_length. f_equal.
  destruct (Nat.le_gt_cases b (length m)) as [L|L].
  - rewrite Nat.min_l by exact L. replace (a - b) with 0 by lia. reflexivity.
  - rewrite (skipn_all2 m) by lia. now rewrite skipn_nil.
Qed.
Lemma units_app a b : units (a ++ b) = units a + units b.
Proof. unfold units. now rewrite map_app, list_sum_app. Qed.
Lemma units_ge l : length l <= units l.
Proof.
  unfold units. induction l as [|c l IH]; cbn [map list_sum length fold_right]; [lia|].
  unfold list_sum in IH. unfold width at 1. destruct (N.ltb c 65536); lia.
Qed.
Lemma units_bmp l : Forall (fun c => (c < 65536)%N) l -> units l = length l.
Proof.
  unfold units. induction 1 as [|c l H F IH]; cbn [map list_sum length fold_right]; [reflexivity|].
  unfold list_sum in IH. unfold width at 1. rewrite (proj2 (N.ltb_lt c 65536) H). lia.
Qed.
Lemma pieces_concat l : forall parts n, concat (pieces_from n l (ends n parts)) = slice n (n + units (concat parts)) l.
Proof.
  induction parts as [|w parts IH]; intros n; cbn [ends pieces_from concat].
  - unfold slice, units. cbn. rewrite Nat.add_0_r, skipn_firstn_comm, Nat.sub_diag. reflexivity.
  - rewrite IH, units_app, slice_join by lia. f_equal. lia.
Qed.
Lemma pieces_length l : forall bs n, length (pieces_from n l bs) = length bs.
Proof. induction bs as [|b bs IH]; intros n; cbn [pieces_from length]; [reflexivity|]. now rewrite IH. Qed.
Lemma ends_length : forall parts n, length (ends n parts) = length parts.
Proof. induction parts as [|b bs IH]; intros n; cbn [ends length]; [reflexivity|]. now rewrite IH. Qed.
Lemma pieces_bmp : forall parts pre, Forall (fun c => (c < 65536)%N) (concat parts) ->
  pieces_from (length pre) (pre ++ concat parts) (ends (length pre) parts) = parts.
Proof.
  induction parts as [|w parts IH]; intros pre F; cbn [ends pieces_from concat] in *; [reflexivity|].
  apply Forall_app in F. destruct F as [F1 F2]. rewrite (units_bmp w F1). f_equal.
  - unfold slice. rewrite app_assoc, <- app_length, firstn_app, firstn_all, Nat.sub_diag. cbn. rewrite app_nil_r.
    rewrite skipn_app, skipn_all, Nat.sub_diag. reflexivity.
  - rewrite <- app_length, app_assoc. now apply IH.
Qed.

(** What is written: a line for each line read, made of its pieces. When the break iterator
    reports the ends of [parts], nothing of the line is lost or written twice, there are as many
    pieces as parts, and the pieces are the parts if the line has no character past U+FFFF. *)
Theorem C83_written icu dir known seg lang infile out :
  break_text ws num icu dir known seg lang infile = Ok (Some out) ->
  exists brk,
    match dir with
    | Some noflatten => noflatten = false /\ exists s text, seg = Some s /\ well_made ws num s text /\ icu text = Ok brk
    | None => lang = Some brk
    end /\
    Forall2 (fun data line => forall l parts, trimmed ws data l -> concat parts = l -> brk l = ends 0 parts ->
               exists pieces, line = join (lit "|") pieces ++ [10%N] /\ concat pieces = l /\ length pieces = length parts /\
                              (Forall (fun c => (c < 65536)%N) l -> pieces = parts)) infile out.
Proof.
  unfold break_text.
  assert (W : forall brk, Forall2 (fun data line => forall l parts, trimmed ws data l -> concat parts = l -> brk l = ends 0 parts ->
               exists pieces, line = join (lit "|") pieces ++ [10%N] /\ concat pieces = l /\ length pieces = length parts /\
                              (Forall (fun c => (c < 65536)%N) l -> pieces = parts)) infile (map (out_line ws brk) infile)).
  { intros brk. induction infile as [|d ds IH]; cbn [map]; constructor; [|exact IH].
    intros l parts T C B. apply trimmed_strip in T. unfold out_line. rewrite <- T, B.
    exists (pieces_from 0 l (ends 0 parts)). split; [reflexivity|]. split; [|split].
    - rewrite pieces_concat, C. unfold slice. cbn [skipn plus]. apply firstn_all2. apply units_ge.
    - now rewrite pieces_length, ends_length.
    - intros F. rewrite <- C. apply (pieces_bmp parts []). now rewrite C. }
  destruct dir as [[]|]; cbn [bind].
  - discriminate.
  - destruct known; [|discriminate]. destruct seg as [s|]; [|discriminate].
    destruct (rules_text ws num s) as [text|e] eqn:R; [|discriminate]. cbn [bind].
    destruct (icu text) as [brk|e] eqn:I; [|discriminate]. cbn [bind]. intros E. injection E as <-.
    exists brk. split; [|apply W]. split; [reflexivity|]. exists s, text. split; [reflexivity|]. split; [now apply C83_text|exact I].
  - destruct lang as [brk|]; [|discriminate]. destruct known; [|discriminate]. cbn [bind]. intros E. injection E as <-.
    exists brk. split; [reflexivity|apply W].
Qed.

(** A character past U+FFFF moves every later break: ICU's positions count it twice. *)
Theorem C83_astral_refuted icu seg brk data a c d b :
  trimmed ws data (a ++ c :: d :: b) -> (65536 <= c)%N -> d <> 124%N ->
  brk (a ++ c :: d :: b) = ends 0 [a ++ [c]; d :: b] ->
  exists line, break_text ws num icu None true seg (Some brk) [data] = Ok (Some [line]) /\
               line <> (a ++ [c]) ++ lit "|" ++ (d :: b) ++ [10%N].
Proof.
  intros T C D B. eexists. split; [reflexivity|]. unfold out_line. rewrite <- (trimmed_strip _ _ T), B.
  cbn [ends pieces_from join plus]. rewrite units_app. unfold slice at 1. cbn [skipn].
  assert (U : units [c] = 2). { unfold units, width. cbn. rewrite (proj2 (N.ltb_ge c 65536) C). reflexivity. }
  pose proof (units_ge a) as G. rewrite U.
  assert (E : exists r, firstn (units a + 2) (a ++ c :: d :: b) = a ++ c :: d :: r).
  { rewrite firstn_app. rewrite firstn_all2 by lia. exists (firstn (units a - length a) b). f_equal.
    replace (units a + 2 - length a) with (S (S (units a - length a))) by lia. reflexivity. }
  destruct E as [r ->]. intros X. rewrite <- !app_assoc in X. apply app_inv_head in X. cbn in X. injection X as X _. congruence.
Qed.

(** Without flattening nothing is written; without the segmentation there is an error in saying so. *)
Theorem C83_noflatten_refuted icu known seg lang infile :
  break_text ws num icu (Some true) known seg lang infile = Ok None /\
  break_text ws num icu (Some false) true None lang infile = Raise TypeError.
Proof. split; reflexivity. Qed.
End Main.

(** * The hypotheses are met *)
Definition blank (c : N) : bool := N.eqb c 32 || N.eqb c 10.
Definition tonum (s : pystr) : option Z := match s with [c] => Some (Z.of_N c) | _ => None end.
Definition seg1 : segmentation :=
  ([(lit "$Word", Some (lit " $Let $Dig ")); (lit "$Dig", Some (lit "0-9")); (lit "$Let", Some (lit "$Low A-Z")); (lit "$Low", Some (lit "a-z"))],
   [(Some (lit "5"), Some (lit "$Word $Dig")); (Some (lit "3"), Some (lit " $Let$Low "))]).
Example C83_met : complete tonum seg1 /\
  rules_text blank tonum seg1 = Ok (concat (map (fun l => l ++ [59; 10]%N)
    [lit "$Dig=[0-9]"; lit "$Low=[a-z]"; lit "$Let=[$Low A-Z]"; lit "$Word=[$Let $Dig]"; lit "$Let$Low"; lit "$Word $Dig"])).
Proof.
  assert (E : rules_text blank tonum seg1 = Ok (concat (map (fun l => l ++ [59; 10]%N)
    [lit "$Dig=[0-9]"; lit "$Low=[a-z]"; lit "$Let=[$Low A-Z]"; lit "$Word=[$Let $Dig]"; lit "$Let$Low"; lit "$Word $Dig"]))) by (vm_compute; reflexivity).
  split; [|exact E]. apply (C83_made blank). eexists. exact E.
Qed.
Example C83_met_cycle : texted [(lit "$A", Some (lit "$B")); (lit "$B", Some (lit "$A"))] /\
  cyclic [(lit "$A", Some (lit "$B")); (lit "$B", Some (lit "$A"))].
Proof.
  split; [intros k [H|[H|[]]]; discriminate|]. exists (lit "$A"). apply t_trans with (lit "$B"); apply t_step.
  - exists (lit "$B"). split; [now left|]. apply refs_spec. vm_compute. now left.
  - exists (lit "$A"). split; [right; now left|]. apply refs_spec. vm_compute. now left.
Qed.
Example C83_met_astral : trimmed blank ([32] ++ [97; 65536; 98] ++ [10])%N ([97] ++ 65536 :: 98 :: [])%N.
Proof. apply strip_spec. Qed.

Print Assumptions C83_text.
Print Assumptions C83_made.
Print Assumptions C83_cycle.
Print Assumptions C83_undefined.
Print Assumptions C83_written.
Print Assumptions C83_astral_refuted.
Print Assumptions C83_noflatten_refuted.
