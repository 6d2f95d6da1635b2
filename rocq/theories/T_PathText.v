(** C26: how the text of a path is read. *)
From Coq Require Import String.
From Verif Require Import Py PyFacts M_LdmlBase M_Collation M_Serialize M_Normalise M_Drafts M_Paths.
From Verif Require Import T_Drafts T_Paths.
Local Open Scope list_scope.
Local Open Scope nat_scope.

(** * Specification: how steps are written *)
Definition show_test (kv : pystr * pystr) : pystr :=
  lit "[@" ++ fst kv ++ lit "=" ++ [34%N] ++ snd kv ++ [34%N] ++ lit "]".
Definition show_step (st : pathstep) : pystr := fst st ++ flat_map show_test (snd st).
Definition show_path (steps : list pathstep) : pystr := join (lit "/") (map show_step steps).

Definition without (bad : list N) (s : pystr) : Prop := forall c, In c bad -> ~ In c s.
Definition writable (ws : N -> bool) (st : pathstep) : Prop :=
  fst st <> [] /\ without [47; 91]%N (fst st) /\
  forall k v, In (k, v) (snd st) ->
    without [47; 93; 61; 10]%N k /\ (forall k' c, k = k' ++ [c] -> ws c = false) /\
    without [47; 93; 10]%N v.

(** names of the form prefix:name become {uri}name *)
Definition expanded (ns : list (pystr * pystr)) (st : pathstep) : pathstep :=
  (reverse_localns ns (fst st),
   map (fun kv : pystr * pystr => (reverse_localns ns (fst kv), snd kv)) (snd st)).

(** * Proof *)
Lemma to_close_app a r : without [93; 10]%N a -> to_close (a ++ 93%N :: r) = Some (a, r).
Proof.
  induction a as [|c a IH]; intro W; cbn [app to_close].
  - reflexivity.
  - assert (c <> 93%N) by (intros ->; apply (W 93%N); cbn; auto).
    assert (c <> 10%N) by (intros ->; apply (W 10%N); cbn; auto).
    destruct (N.eqb_spec c 93); [congruence|]. destruct (N.eqb_spec c 10); [congruence|].
    rewrite IH; [reflexivity|]. intros x Hx Hin. apply (W x Hx). now right.
Qed.
Lemma split_brackets_text f acc t r : ~ In 91%N t ->
  split_brackets (List.length t + f) acc (t ++ r) = split_brackets f (acc ++ t) r.
Proof.
  revert acc. induction t as [|c t IH]; intros acc H; cbn [List.length app Nat.add split_brackets].
  - now rewrite app_nil_r.
  - destruct (N.eqb_spec c 91) as [->|_]; [exfalso; apply H; now left|].
    rewrite IH by (intro; apply H; now right). now rewrite <- app_assoc.
Qed.
Definition inner (kv : pystr * pystr) : pystr := 64%N :: fst kv ++ 61%N :: 34%N :: snd kv ++ [34%N].
Lemma show_test_inner kv : show_test kv = 91%N :: inner kv ++ [93%N].
Proof.
  unfold show_test, inner. change (lit "[@") with [91; 64]%N. change (lit "=") with [61%N].
  change (lit "]") with [93%N]. cbn. f_equal. f_equal. rewrite <- !app_assoc. f_equal. cbn.
  f_equal. f_equal. now rewrite <- app_assoc.
Qed.
Lemma inner_ok k v : without [47; 93; 61; 10]%N k -> without [47; 93; 10]%N v ->
  without [93; 10]%N (inner (k, v)).
Proof.
  intros Hk Hv c Hc Hin. unfold inner in Hin. cbn [fst snd] in Hin.
  destruct Hin as [<-|Hin]; [cbn in Hc; intuition discriminate|].
  apply in_app_iff in Hin as [Hin|[<-|[<-|Hin]]].
  - apply (Hk c); [cbn in *; intuition|assumption].
  - cbn in Hc; intuition discriminate.
  - cbn in Hc; intuition discriminate.
  - apply in_app_iff in Hin as [Hin|[<-|[]]]; [|cbn in Hc; intuition discriminate].
    apply (Hv c); [cbn in *; intuition|assumption].
Qed.
Lemma split_brackets_tests ws st : writable ws st -> forall f acc,
  List.length (flat_map show_test (snd st)) < f ->
  split_brackets f acc (flat_map show_test (snd st))
  = acc :: flat_map (fun kv => [inner kv; []]) (snd st).
Proof.
  destruct st as [t attrs]. intros (_ & _ & H). cbn [fst snd] in *. clear t.
  induction attrs as [|[k v] attrs IH]; intros f acc L; cbn [flat_map].
  - destruct f; [lia|]. reflexivity.
  - rewrite show_test_inner. cbn [flat_map] in L. rewrite show_test_inner in L.
    rewrite app_length in L. cbn [List.length app] in L. rewrite app_length in L. cbn [List.length] in L.
    destruct f as [|f]; [lia|]. cbn [app split_brackets]. rewrite N.eqb_refl.
    destruct (H k v (or_introl eq_refl)) as (Hk & _ & Hv).
    rewrite <- app_assoc. cbn [app].
    rewrite (to_close_app _ _ (inner_ok k v Hk Hv)).
    rewrite IH; [reflexivity| |lia]. intros k' v' Hin. apply H. now right.
Qed.

Lemma partition1_app c a b : ~ In c a -> partition1 c (a ++ c :: b) = Some (a, b).
Proof.
  induction a as [|x a IH]; intro H; cbn [app partition1].
  - now rewrite N.eqb_refl.
  - destruct (N.eqb_spec x c) as [->|_]; [exfalso; apply H; now left|].
    rewrite IH; [reflexivity|]. intro; apply H; now right.
Qed.

Section Read.
  Variable ws : N -> bool.
  Variable ns : list (pystr * pystr).
  Hypothesis ws_quote : ws 34%N = false.
  Hypothesis ws_at : ws 64%N = false.

  Lemma rstrip_id s : (forall s' c, s = s' ++ [c] -> ws c = false) -> rstrip ws s = s.
  Proof.
    intro H. unfold rstrip. destruct (rev s) as [|c r] eqn:E.
    - apply (f_equal (@rev N)) in E. rewrite rev_involutive in E. now subst.
    - assert (s = rev r ++ [c]) as Es by (rewrite <- (rev_involutive s), E; reflexivity).
      cbn [lstrip]. rewrite (H _ _ Es). cbn [rev]. now symmetry.
  Qed.

  Lemma read_test_inner k v : without [47; 93; 61; 10]%N k ->
    (forall k' c, k = k' ++ [c] -> ws c = false) ->
    read_test ws ns (inner (k, v)) = Ok (Some (reverse_localns ns k, v)).
  Proof.
    intros Hk Hl. unfold read_test, inner. cbn [fst snd].
    change (64%N :: k ++ 61%N :: 34%N :: v ++ [34%N]) with ((64%N :: k) ++ 61%N :: 34%N :: v ++ [34%N]).
    rewrite partition1_app.
    2:{ intros [E|Hin]; [discriminate|]. apply (Hk 61%N); [cbn; auto|assumption]. }
    cbn [app].
    rewrite rstrip_id.
    2:{ intros s' c E. destruct k as [|x k'] using rev_ind.
        - destruct s' as [|y s']; [injection E as <-; assumption|]. destruct s'; discriminate.
        - rewrite app_comm_cons in E. apply app_inj_tail in E as [_ <-]. eapply Hl; reflexivity. }
    cbn [lstrip]. rewrite ws_quote. cbn [N.eqb Pos.eqb orb tl].
    now rewrite removelast_last.
  Qed.

  Lemma read_tests_app l : forall d,
    (forall k v, In (k, v) l -> without [47; 93; 61; 10]%N k /\ (forall k' c, k = k' ++ [c] -> ws c = false)) ->
    read_tests ws ns (flat_map (fun kv => [inner kv; []]) l) d
    = Ok (fold_left (fun d (kv : pystr * pystr) => dset streq d (reverse_localns ns (fst kv)) (snd kv)) l d).
  Proof.
    induction l as [|[k v] l IH]; intros d H; cbn [flat_map app read_tests fold_left]; [reflexivity|].
    destruct (H k v (or_introl eq_refl)) as [Hk Hl]. rewrite read_test_inner by assumption.
    cbn [bind]. cbn [read_test read_tests bind]. apply IH. intros k' v' Hin. apply (H k' v'). now right.
  Qed.

  Lemma fold_dset_fresh (l d : list (pystr * pystr)) : NoDup (map fst (d ++ l)) ->
    fold_left (fun d (kv : pystr * pystr) => dset streq d (fst kv) (snd kv)) l d = d ++ l.
  Proof.
    revert d. induction l as [|[k v] l IH]; intros d ND; cbn [fold_left fst snd]; [now rewrite app_nil_r|].
    assert (dset streq d k v = d ++ [(k, v)]) as E.
    { rewrite map_app in ND. apply NoDup_remove_2 in ND. cbn in ND.
      assert (~ In k (map fst d)) as Hn by (intro; apply ND, in_or_app; now left).
      clear -Hn. induction d as [|[k' v'] d IHd]; cbn in *; [reflexivity|].
      destruct (streq_spec k k') as [->|_]; [exfalso; auto|]. rewrite IHd; auto. }
    rewrite E, IH; rewrite <- app_assoc; [reflexivity|exact ND].
  Qed.
  Lemma fold_left_map_dset (l d : list (pystr * pystr)) :
    fold_left (fun d (kv : pystr * pystr) => dset streq d (reverse_localns ns (fst kv)) (snd kv)) l d
    = fold_left (fun d (kv : pystr * pystr) => dset streq d (fst kv) (snd kv))
        (map (fun kv : pystr * pystr => (reverse_localns ns (fst kv), snd kv)) l) d.
  Proof. revert d. induction l as [|[k v] l IH]; intro d; cbn; [reflexivity|]. apply IH. Qed.

  Lemma read_step_show st : writable ws st -> NoDup (dkeys (snd (expanded ns st))) ->
    read_step ws ns (show_step st) = Ok (expanded ns st).
  Proof.
    intros W ND. pose proof W as (Nt & Wt & Wa). unfold read_step, show_step.
    rewrite app_length, <- Nat.add_succ_r.
    rewrite split_brackets_text by (apply Wt; cbn; auto).
    rewrite (split_brackets_tests ws st W) by lia.
    rewrite read_tests_app. 2:{ intros k v H. destruct (Wa k v H) as (H1 & H2 & _). auto. }
    cbn [bind]. rewrite fold_left_map_dset, fold_dset_fresh; [reflexivity|]. exact ND.
  Qed.

  Lemma show_step_noslash st : writable ws st -> ~ In 47%N (show_step st).
  Proof.
    intros (Nt & Wt & Wa) H. unfold show_step in H. apply in_app_iff in H as [H|H].
    - apply (Wt 47%N); [cbn; auto|assumption].
    - apply in_flat_map in H as ([k v] & Hin & H). destruct (Wa k v Hin) as (Hk & _ & Hv).
      rewrite show_test_inner in H. unfold inner in H. cbn [fst snd] in H.
      destruct H as [H|H]; [discriminate|].
      apply in_app_iff in H as [[H|H]|[H|[]]]; try discriminate.
      apply in_app_iff in H as [H|[H|[H|H]]]; try discriminate.
      + apply (Hk 47%N); [cbn; auto|assumption].
      + apply in_app_iff in H as [H|[H|[]]]; try discriminate. apply (Hv 47%N); [cbn; auto|assumption].
  Qed.

  (** ** C26: a written path is read as the steps it was written from *)
  Theorem C26_read_back : forall steps, steps <> [] ->
    Forall (fun st => writable ws st /\ NoDup (dkeys (snd (expanded ns st)))) steps ->
    read_path ws ns (show_path steps) = Ok (map (expanded ns) steps).
  Proof.
    intros steps Ne F. unfold read_path, show_path. change (lit "/") with [47%N].
    assert (startswith [47%N] (join [47%N] (map show_step steps)) = false) as Es.
    { destruct steps as [|st steps]; [congruence|]. inversion F as [|? ? [(Nt & Wt & _) _] _]; subst.
      assert (exists c r, join [47%N] (map show_step (st :: steps)) = c :: r /\ c <> 47%N) as (c & r & -> & Nc).
      { destruct st as [[|c t] attrs]; cbn [fst] in *; [congruence|].
        assert (c <> 47%N) by (intros ->; apply (Wt 47%N); cbn; auto).
        destruct steps as [|st2 steps]; cbn [map join]; unfold show_step at 1; cbn [fst app].
        - eexists c, _. split; [reflexivity|assumption].
        - eexists c, _. split; [reflexivity|assumption]. }
      unfold startswith. cbn [strip_prefix]. destruct (N.eqb_spec 47 c); [congruence|reflexivity]. }
    rewrite Es. rewrite split_join.
    - clear Es Ne. induction F as [|st steps [W ND] F IH]; cbn [map read_steps]; [reflexivity|].
      rewrite read_step_show by assumption. cbn [bind]. now rewrite IH.
    - destruct steps; cbn; congruence.
    - apply Forall_forall. intros s Hs. apply in_map_iff in Hs as (st & <- & Hst).
      rewrite Forall_forall in F. apply show_step_noslash, F, Hst.
  Qed.
End Read.

(** A case, with a namespaced name. *)
Definition ex_ns : list (pystr * pystr) := [(lit "urn:sil", lit "sil")].
Definition ex_steps : list pathstep :=
  [(lit "dates", []); (lit "months", [(lit "type", lit "wide"); (lit "alt", lit "a=b [c")]); (lit "sil:x", [])].
Example C26_read_example :
  show_path ex_steps = lit "dates/months[@type=""wide""][@alt=""a=b [c""]/sil:x" /\
  read_path (fun c => N.eqb c 32) ex_ns (show_path ex_steps)
  = Ok [(lit "dates", []); (lit "months", [(lit "type", lit "wide"); (lit "alt", lit "a=b [c")]);
        (lit "{urn:sil}x", [])].
Proof. split; vm_compute; reflexivity. Qed.

(** A "/" in the value of an attribute cuts the step in two: the element is there, but the
    path that describes it does not find it. *)
Definition ex_zone : lnode :=
  LNode (lit "zones") [] None 0 0 None
    [LNode (lit "zone") [(lit "type", lit "Asia/Seoul")] None 0 0 None []].
Theorem C26_slash_refuted :
  let ws := fun c => N.eqb c 32 in
  let steps := [(lit "zone", [(lit "type", lit "Asia/Seoul")])] in
  walk ex_zone steps [0] /\
  forall hasher m dd useDrafts ud uid ns,
    findall ws hasher m dd useDrafts ud uid ns ex_zone [] (show_path steps) = Ok (ex_zone, []).
Proof.
  cbv zeta. split.
  - eapply walk_step with (c := LNode (lit "zone") [(lit "type", lit "Asia/Seoul")] None 0 0 None []).
    + intro H. apply streq_true in H. vm_compute in H. discriminate.
    + reflexivity.
    + reflexivity.
    + intros k v [E|[]]. injection E as <- <-. left. reflexivity.
    + constructor.
  - intros. unfold findall, ensure_path, process_path.
    assert (read_path (fun c => N.eqb c 32) ns (show_path [(lit "zone", [(lit "type", lit "Asia/Seoul")])])
            = Ok [(lit "zone[@type=""Asia", []); (lit "Seoul""]", [])]) as ->.
    { vm_compute. reflexivity. }
    cbn [bind]. reflexivity.
Qed.
