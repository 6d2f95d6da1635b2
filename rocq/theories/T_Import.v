(** C77: importing a CLDR tree. *)
From Coq Require Import String Lia Permutation.
From Verif Require Import Py PyFacts M_Import.
Local Open Scope nat_scope.
Local Open Scope list_scope.

(** ** What the statements are about *)
(** where the file of a locale goes *)
Definition place (a : pystr) : path := (firstn 1 a, a ++ lit ".xml").
(** what is written for a locale, if anything *)
Definition text {D R} (build : pystr -> list (pystr * D) -> res (list (@elem R))) (ser : list (@elem R) -> pystr * option exn) (hg : bool)
  (ins : list (pystr * list (pystr * D))) (a : pystr) : option pystr :=
  match sources ins a, build a (sources ins a) with
  | _ :: _, Ok d => if hg then None else match a with [] => None | _ => Some (fst (ser (strip (length (sources ins a) - 1) d))) end
  | _, _ => None
  end.
Definition any_order (f : list pystr -> list pystr) : Prop := forall l, Permutation (f l) l.

(** ** Facts *)
Lemma patheq_spec p q : reflect (p = q) (patheq p q).
Proof.
  unfold patheq. destruct p as [a b], q as [c d]. cbn. destruct (streq_spec a c) as [->|N]; cbn; [|constructor; congruence].
  destruct (streq_spec b d) as [->|N]; constructor; congruence.
Qed.
Lemma place_inj a b : place a = place b -> a = b.
Proof. unfold place. intros E. injection E as _ E. now apply app_inv_tail in E. Qed.
Lemma to_set_cons y l : to_set (y :: l) = if existsb (streq y) (to_set l) then to_set l else y :: to_set l.
Proof. reflexivity. Qed.
Lemma to_set_In l x : In x (to_set l) <-> In x l.
Proof.
  induction l as [|y l IH]; [reflexivity|]. rewrite to_set_cons. destruct (existsb (streq y) (to_set l)) eqn:E.
  - rewrite IH. split; [now right|]. intros [<-|I]; [|exact I]. apply existsb_exists in E. destruct E as (z & Z & S). apply streq_true in S. subst z. now apply IH.
  - cbn [In]. rewrite IH. reflexivity.
Qed.
Lemma to_set_NoDup l : NoDup (to_set l).
Proof.
  induction l as [|y l IH]; [constructor|]. rewrite to_set_cons. destruct (existsb (streq y) (to_set l)) eqn:E; [exact IH|]. constructor; [|exact IH].
  intros I. assert (X : existsb (streq y) (to_set l) = true) by (apply existsb_exists; exists y; split; [exact I|apply streq_refl]). congruence.
Qed.

Section T.
  Context {D R : Type}.
  Variable build : pystr -> list (pystr * D) -> res (list (@elem R)).
  Variable ser : list (@elem R) -> pystr * option exn.
  Notation doit := (doit build ser).
  Notation fails := (fails build ser).
  Notation tried := (tried build ser).
  Notation text := (text build ser).
  Notation import := (import build ser).
  Notation indir := (list (pystr * list (pystr * D))).
  Implicit Types (ins : indir) (out : outdir).

  Lemma doit_get hg ins a out p : dget patheq (fst (doit hg ins a out)) p = if patheq p (place a) then match text hg ins a with Some t => Some t | None => dget patheq out p end else dget patheq out p.
  Proof.
    unfold M_Import.doit, T_Import.text. destruct (sources ins a) as [|s l]; [now destruct (patheq p (place a))|].
    destruct (build a (s :: l)) as [d|e]; [|now destruct (patheq p (place a))]. destruct hg; [now destruct (patheq p (place a))|].
    destruct a as [|c a]; [now destruct (patheq p (place []))|]. cbn [fst]. rewrite (dget_dset patheq patheq_spec). reflexivity.
  Qed.
  Lemma doit_NoDup hg ins a out : NoDup (dkeys out) -> NoDup (dkeys (fst (doit hg ins a out))).
  Proof.
    intros N. unfold M_Import.doit. destruct (sources ins a) as [|s l]; [exact N|]. destruct (build a (s :: l)) as [d|e]; [|exact N]. destruct hg; [exact N|].
    destruct a as [|c a]; [exact N|]. cbn [fst]. now apply (dset_NoDup patheq patheq_spec).
  Qed.
  Lemma doit_fails hg ins a out : (exists e, snd (doit hg ins a out) = Some e) <-> fails hg ins a = true.
  Proof.
    unfold M_Import.fails, M_Import.doit. destruct (sources ins a) as [|s l]; cbn; [split; [intros [? ?]; discriminate|discriminate]|].
    destruct (build a (s :: l)) as [d|e]; cbn; [|split; [auto|eauto]]. destruct hg; cbn; [split; [auto|eauto]|].
    destruct a as [|c a]; cbn; [split; [auto|eauto]|]. destruct (ser _) as [t [e|]]; cbn; split; auto; try discriminate; eauto. intros [? ?]; discriminate.
  Qed.
  Definition go hg ins (l : list pystr) out : outdir := fold_left (fun out a => fst (doit hg ins a out)) l out.
  Lemma go_get hg ins l : forall out p,
    (forall a, In a l -> place a = p -> text hg ins a = None) -> dget patheq (go hg ins l out) p = dget patheq out p.
  Proof.
    induction l as [|a l IH]; intros out p H; [reflexivity|]. cbn [go fold_left]. fold (go hg ins l (fst (doit hg ins a out))). rewrite IH by (intros b I; apply H; now right).
    rewrite doit_get. destruct (patheq_spec p (place a)) as [->|N]; [|reflexivity]. now rewrite (H a (or_introl eq_refl) eq_refl).
  Qed.
  Lemma go_text hg ins l : forall out a t, In a l -> text hg ins a = Some t -> dget patheq (go hg ins l out) (place a) = Some t.
  Proof.
    induction l as [|b l IH]; intros out a t I T; [easy|]. cbn [go fold_left]. fold (go hg ins l (fst (doit hg ins b out))).
    destruct (in_dec (list_eq_dec N.eq_dec) a l) as [J|J]; [now apply IH|]. destruct I as [->|I]; [|contradiction].
    rewrite go_get. 2:{ intros c C E. apply place_inj in E. now subst c. }
    rewrite doit_get. destruct (patheq_spec (place a) (place a)); [|congruence]. now rewrite T.
  Qed.
  Lemma go_NoDup hg ins l : forall out, NoDup (dkeys out) -> NoDup (dkeys (go hg ins l out)).
  Proof. induction l as [|a l IH]; intros out N; [exact N|]. apply IH. now apply doit_NoDup. Qed.
  Lemma single_go hg ins l : forall out, (forall a, In a l -> fails hg ins a = false) -> run_single build ser hg ins l out = (go hg ins l out, None).
  Proof.
    induction l as [|a l IH]; intros out H; [reflexivity|]. cbn [run_single]. pose proof (doit_fails hg ins a out) as F. destruct (doit hg ins a out) as [out' [e|]] eqn:E.
    - rewrite (H a (or_introl eq_refl)) in F. destruct F as [F _]. assert (X : false = true) by (apply F; now exists e). discriminate.
    - cbn [go fold_left]. rewrite E. apply IH. intros b I. apply H. now right.
  Qed.
  Lemma tried_all hg ins l : (forall a, In a l -> fails hg ins a = false) -> tried hg ins l = l.
  Proof. induction l as [|a l IH]; intros H; [reflexivity|]. cbn. rewrite (H a (or_introl eq_refl)). f_equal. apply IH. intros b I. apply H. now right. Qed.
  Lemma tried_incl hg ins l a : In a (tried hg ins l) -> In a l.
  Proof. induction l as [|b l IH]; [easy|]. cbn. destruct (fails hg ins b); cbn; intros [->|I]; auto. easy. Qed.
  Lemma chunks_concat fuel n : forall l : list pystr, 0 < n -> length l <= fuel -> concat (chunks fuel n l) = l.
  Proof.
    induction fuel as [|f IH]; intros l Hn L; [now destruct l|]. destruct l as [|x l]; [reflexivity|]. cbn [chunks concat]. rewrite IH; [apply firstn_skipn|exact Hn|].
    rewrite skipn_length. cbn [length] in *. lia.
  Qed.
  Lemma chunk_pos p n : 0 < p -> 0 < n -> 0 < chunk_size p n.
  Proof.
    intros P L. unfold chunk_size. pose proof (Nat.div_mod n (p * 4) ltac:(lia)) as H. set (q := n / (p * 4)) in *. set (m := n mod (p * 4)) in *. clearbody q m.
    destruct (Nat.eqb_spec m 0) as [E|]; [|lia]. destruct q; [|lia]. subst m. rewrite Nat.mul_0_r in H. lia.
  Qed.
  Lemma flat_map_id hg ins (cs : list (list pystr)) : (forall a, In a (concat cs) -> fails hg ins a = false) -> flat_map (tried hg ins) cs = concat cs.
  Proof.
    induction cs as [|c cs IH]; intros H; [reflexivity|]. cbn. rewrite IH by (intros a I; apply H; cbn; apply in_or_app; now right). f_equal. apply tried_all. intros a I. apply H. cbn. apply in_or_app. now left.
  Qed.
  (** what the first half does: the locales that are tried *)
  Lemma chunks_incl fuel n : forall (l : list pystr) c a, In c (chunks fuel n l) -> In a c -> In a l.
  Proof.
    induction fuel as [|f IH]; intros l c a Ic Ia; [now destruct l|]. destruct l as [|x l]; [easy|]. cbn [chunks] in Ic. destruct Ic as [<-|Ic].
    - rewrite <- (firstn_skipn n (x :: l)). apply in_or_app. now left.
    - rewrite <- (firstn_skipn n (x :: l)). apply in_or_app. right. eapply IH; eassumption.
  Qed.
  Definition run enum sched procs hg ins out := match procs with O => run_single build ser hg ins (enum (to_set (found ins))) out | S _ => run_pool build ser procs sched hg ins (enum (to_set (found ins))) out end.
  Lemma run_ok enum sched procs hg ins out : any_order enum -> any_order sched -> (forall a, In a (found ins) -> fails hg ins a = false) ->
    exists l, (forall a, In a l <-> In a (found ins)) /\ run enum sched procs hg ins out = (go hg ins l out, None).
  Proof.
    intros E1 E2 H. assert (Ie : forall a, In a (enum (to_set (found ins))) <-> In a (found ins)).
    { intros a. rewrite <- (to_set_In (found ins) a). split; apply Permutation_in; [apply E1|symmetry; apply E1]. }
    destruct procs as [|procs]; cbn [run].
    - exists (enum (to_set (found ins))). split; [exact Ie|]. apply single_go. intros a I. apply H. now apply Ie.
    - unfold run_pool. set (o := enum (to_set (found ins))) in *. set (cs := chunks _ _ o).
      assert (C : concat cs = o) by (destruct o as [|x o']; [reflexivity|]; apply chunks_concat; [apply chunk_pos; cbn; lia|lia]).
      exists (sched (flat_map (tried hg ins) cs)). split; [|reflexivity]. intros a. rewrite flat_map_id.
      + rewrite C, <- Ie. split; apply Permutation_in; [apply E2|symmetry; apply E2].
      + intros b I. apply H, Ie. now rewrite <- C.
  Qed.
  Lemma run_pool_some enum sched procs hg ins out : any_order enum -> any_order sched -> 0 < procs ->
    exists l, (forall a, In a l -> In a (found ins)) /\ run enum sched procs hg ins out = (go hg ins l out, None).
  Proof.
    intros E1 E2 P. destruct procs as [|procs]; [lia|]. eexists. split; [|reflexivity]. intros a I. apply (Permutation_in _ (E2 _)) in I.
    apply in_flat_map in I. destruct I as (c & Ic & Ia). apply tried_incl in Ia. apply (chunks_incl _ _ _ _ _ Ic) in Ia.
    apply (Permutation_in _ (E1 _)) in Ia. apply to_set_In. exact Ia.
  Qed.
  Lemma unlink_get l : forall out, NoDup (dkeys out) -> ~ In [] l ->
    exists out', unlink_all l out = (out', None) /\ NoDup (dkeys out') /\
      forall p, dget patheq out' p = if existsb (fun a => patheq p (place a)) l then None else dget patheq out p.
  Proof.
    induction l as [|a l IH]; intros out N Ne; [now exists out|]. destruct a as [|c a]; [exfalso; apply Ne; now left|]. cbn [unlink_all].
    destruct (IH (ddel patheq out ([c], (c :: a) ++ dotxml))) as (out' & E & N' & G); [now apply ddel_NoDup|intros I; apply Ne; now right|].
    exists out'. split; [exact E|]. split; [exact N'|]. intros p. rewrite G. cbn [existsb]. rewrite (dget_ddel patheq patheq_spec) by exact N.
    change ([c], (c :: a) ++ dotxml) with (place (c :: a)). destruct (patheq p (place (c :: a))); cbn [orb]; [now destruct (existsb _ l)|reflexivity].
  Qed.
  Lemma stems_In l x : In x (stems l) <-> exists f, In f l /\ is_xml f = true /\ x = stem f.
  Proof.
    unfold stems. rewrite in_map_iff. split; [intros (f & <- & I); apply filter_In in I; exists f; tauto|]. intros (f & I & X & ->). exists f. split; [reflexivity|]. now apply filter_In.
  Qed.
  Lemma skipn_app_len (a b : pystr) : skipn (length a) (a ++ b) = b.
  Proof. induction a as [|x a IH]; [reflexivity|exact IH]. Qed.
  Lemma firstn_app_len (a b : pystr) : firstn (length a) (a ++ b) = a.
  Proof. induction a as [|x a IH]; [reflexivity|cbn; now rewrite IH]. Qed.
  Lemma xml_name a : is_xml (a ++ lit ".xml") = true /\ stem (a ++ lit ".xml") = a.
  Proof.
    unfold is_xml, stem. rewrite app_length. change (length (lit ".xml")) with 4. replace (length a + 4 - 4) with (length a) by lia.
    rewrite skipn_app_len, firstn_app_len. now split.
  Qed.
  Lemma existing_place out a : dget patheq out (place a) <> None -> In a (existing out).
  Proof.
    intros H. destruct (dget patheq out (place a)) as [t|] eqn:E; [|congruence]. apply (dget_In patheq patheq_spec) in E. unfold existing. apply stems_In.
    exists (a ++ lit ".xml"). destruct (xml_name a) as [A B]. split; [|split; [exact A|now symmetry]]. apply in_map_iff. exists (place a, t). now split.
  Qed.
  (** no file in the output is called just ".xml" *)
  Definition named out : Prop := forall d f t, dget patheq out (d, f) = Some t -> is_xml f = true -> stem f <> [].
  Lemma named_existing out : NoDup (dkeys out) -> named out -> ~ In [] (existing out).
  Proof.
    intros N H I. apply stems_In in I. destruct I as (f & I & X & E). apply in_map_iff in I. destruct I as ([[d f'] t] & E' & I). cbn in E'. subst f'.
    apply (dget_NoDup_In patheq patheq_spec) in I; [|exact N]. exact (H d f t I X (eq_sym E)).
  Qed.

  Lemma import_run enum sched procs hg remove ins out out1 : any_order enum -> NoDup (dkeys out) -> named out -> 
    run enum sched procs hg ins out = (out1, None) -> NoDup (dkeys out1) -> 
    (forall p, (forall a, In a (found ins) -> place a <> p) -> dget patheq out1 p = dget patheq out p) ->
    exists out2, import enum sched procs hg remove ins out = (out2, None) /\ NoDup (dkeys out2) /\
      forall p, dget patheq out2 p = if (remove && existsb (fun a => negb (existsb (streq a) (found ins)) && patheq p (place a)) (existing out))%bool then None else dget patheq out1 p.
  Proof.
    intros E1 N Nm Er N1 Same. unfold M_Import.import. fold (run enum sched procs hg ins out). rewrite Er. cbn [snd fst]. destruct remove; [|now exists out1].
    set (old := enum _). assert (Io : forall a, In a old <-> In a (existing out) /\ ~ In a (found ins)).
    { intros a. unfold old. split.
      - intros I. apply (Permutation_in _ (E1 _)) in I. apply filter_In in I. destruct I as [I X]. apply (proj1 (to_set_In _ _)) in I. split; [exact I|]. intros F. apply negb_true_iff in X.
        assert (Y : existsb (streq a) (to_set (found ins)) = true) by (apply existsb_exists; exists a; split; [now apply to_set_In|apply streq_refl]). congruence.
      - intros [I F]. apply (Permutation_in _ (Permutation_sym (E1 _))). apply filter_In. split; [now apply to_set_In|]. apply negb_true_iff. destruct (existsb (streq a) (to_set (found ins))) eqn:X; [|reflexivity].
        exfalso. apply existsb_exists in X. destruct X as (b & B & S). apply streq_true in S. subst b. apply F. now apply to_set_In. }
    destruct (unlink_get old out1 N1) as (out2 & E2 & N2 & G); [intros I; apply Io in I; now apply (named_existing out N Nm)|].
    exists out2. split; [exact E2|]. split; [exact N2|]. intros p. rewrite G. cbn [andb].
    assert (EE : existsb (fun a => patheq p (place a)) old = existsb (fun a => negb (existsb (streq a) (found ins)) && patheq p (place a))%bool (existing out)); [|now rewrite EE].
    apply eq_true_iff_eq. rewrite !existsb_exists. split.
    - intros (a & I & X). apply Io in I. destruct I as [I F]. exists a. split; [exact I|]. rewrite X, andb_true_r. apply negb_true_iff. destruct (existsb (streq a) (found ins)) eqn:Y; [|reflexivity].
      exfalso. apply existsb_exists in Y. destruct Y as (b & B & S). apply streq_true in S. subst b. contradiction.
    - intros (a & I & X). apply andb_true_iff in X. destruct X as [X Y]. exists a. split; [|exact Y]. apply Io. split; [exact I|]. intros F. apply negb_true_iff in X.
      assert (Z : existsb (streq a) (found ins) = true) by (apply existsb_exists; exists a; split; [exact F|apply streq_refl]). congruence.
  Qed.

  Lemma no_remove remove ins out out2 (o1 : outdir) (G : forall p, dget patheq out2 p = if (remove && existsb (fun a => negb (existsb (streq a) (found ins)) && patheq p (place a)) (existing out))%bool then None else dget patheq o1 p) :
    forall p : path, (forall a, place a = p -> In a (found ins)) -> dget patheq out2 p = dget patheq o1 p.
  Proof.
    intros p P. rewrite G. replace (existsb _ (existing out)) with false; [now rewrite andb_false_r|]. symmetry. apply not_true_iff_false. intros X. apply existsb_exists in X.
    destruct X as (a & _ & X). apply andb_true_iff in X. destruct X as [X Y]. destruct (patheq_spec p (place a)) as [->|]; [|discriminate]. apply negb_true_iff in X.
    assert (Z : existsb (streq a) (found ins) = true) by (apply existsb_exists; exists a; split; [now apply P|apply streq_refl]). congruence.
  Qed.
  Lemma removed remove ins out out2 (o1 : outdir) (G : forall p, dget patheq out2 p = if (remove && existsb (fun a => negb (existsb (streq a) (found ins)) && patheq p (place a)) (existing out))%bool then None else dget patheq o1 p)
    (Same : forall p : path, (forall a, In a (found ins) -> place a <> p) -> dget patheq o1 p = dget patheq out p) :
    forall a, ~ In a (found ins) -> dget patheq out2 (place a) = if remove then None else dget patheq out (place a).
  Proof.
    intros a F'. rewrite G. rewrite Same by (intros b B E; apply place_inj in E; now subst b). destruct remove; [|reflexivity]. cbn [andb].
    destruct (existsb _ (existing out)) eqn:X; [reflexivity|]. destruct (dget patheq out (place a)) as [t|] eqn:E; [|reflexivity]. exfalso.
    assert (Y : existsb (fun b => negb (existsb (streq b) (found ins)) && patheq (place a) (place b))%bool (existing out) = true); [|congruence].
    apply existsb_exists. exists a. split; [apply existing_place; congruence|]. apply andb_true_iff. split; [|now destruct (patheq_spec (place a) (place a))].
    apply negb_true_iff. apply not_true_iff_false. intros Z. apply existsb_exists in Z. destruct Z as (b & B & S). apply streq_true in S. subst b. contradiction.
  Qed.
  Lemma place_dec (p : path) : {a | p = place a} + {forall a, place a <> p}.
  Proof.
    destruct p as [d f]. destruct (patheq_spec (place (stem f)) (d, f)) as [E|E]; [left; exists (stem f); now symmetry|]. right. intros a A. apply E. injection A as A B. subst f d. destruct (xml_name a) as [_ X]. rewrite X. reflexivity.
  Qed.

  (** ** The result *)
  (** When no locale fails: the file of a locale that has sources is written; the files of locales that are not in the source
      are removed with --remove; and nothing else changes. *)
  Theorem C77_result : forall enum sched procs hg remove ins out, any_order enum -> any_order sched -> NoDup (dkeys out) -> named out ->
    (forall a, In a (found ins) -> fails hg ins a = false) ->
    exists out', import enum sched procs hg remove ins out = (out', None) /\ NoDup (dkeys out') /\ named out' /\
      (forall a t, In a (found ins) -> text hg ins a = Some t -> dget patheq out' (place a) = Some t) /\
      (forall a, ~ In a (found ins) -> dget patheq out' (place a) = if remove then None else dget patheq out (place a)) /\
      (forall p, (forall a, In a (found ins) -> place a = p -> text hg ins a = None) -> (forall a, place a = p -> In a (found ins)) -> dget patheq out' p = dget patheq out p).
  Proof.
    intros enum sched procs hg remove ins out E1 E2 N Nm F. destruct (run_ok enum sched procs hg ins out E1 E2 F) as (l & Il & Er).
    assert (Same : forall p, (forall a, In a (found ins) -> place a <> p) -> dget patheq (go hg ins l out) p = dget patheq out p).
    { intros p P. apply go_get. intros a I E. exfalso. apply (P a); [now apply Il|exact E]. }
    destruct (import_run enum sched procs hg remove ins out _ E1 N Nm Er (go_NoDup hg ins l out N) Same) as (out2 & Ei & N2 & G).
    pose proof (no_remove _ _ _ _ _ G) as NoRem.
    exists out2. split; [exact Ei|]. split; [exact N2|]. split; [|split; [|split]].
    - intros d f t E X S. rewrite G in E. destruct (remove && _)%bool; [discriminate|].
      destruct (list_eq_dec N.eq_dec f (lit ".xml")) as [->|Nf].
      + assert (P : forall a, In a l -> place a = (d, lit ".xml") -> text hg ins a = None).
        { intros a _ Q. injection Q as _ Q. destruct a as [|c a]; [|apply (f_equal (@length _)) in Q; rewrite app_length in Q; cbn in Q; lia]. unfold T_Import.text. destruct (sources ins []); [reflexivity|]. destruct (build _ _); [|reflexivity]. now destruct hg. }
        rewrite (go_get hg ins l out _ P) in E. exact (Nm _ _ _ E X S).
      + assert (P : forall a, In a l -> place a = (d, f) -> text hg ins a = None).
        { intros a _ Q. exfalso. injection Q as _ Q. destruct a as [|c a]; [now apply Nf|]. subst f. destruct (xml_name (c :: a)) as [_ B]. congruence. }
        rewrite (go_get hg ins l out _ P) in E. exact (Nm _ _ _ E X S).
    - intros a t I T. rewrite NoRem; [|intros b E; apply place_inj in E; now subst b]. apply go_text; [now apply Il|exact T].
    - intros a F'. now apply (removed _ _ _ _ _ G Same).
    - intros p P Q. rewrite (NoRem p Q). apply go_get. intros a I E. apply P; [now apply Il|exact E].
  Qed.

  (** The order in which sets are enumerated, the number of processes, the order in which they happen to write, and --single
      make no difference. *)
  Theorem C77_schedule : forall enum sched procs enum' sched' procs' hg remove ins out,
    any_order enum -> any_order sched -> any_order enum' -> any_order sched' -> NoDup (dkeys out) -> named out ->
    (forall a, In a (found ins) -> fails hg ins a = false) ->
    snd (import enum sched procs hg remove ins out) = None /\ snd (import enum' sched' procs' hg remove ins out) = None /\
    forall p, dget patheq (fst (import enum sched procs hg remove ins out)) p = dget patheq (fst (import enum' sched' procs' hg remove ins out)) p.
  Proof.
    intros enum sched procs enum' sched' procs' hg remove ins out E1 E2 E3 E4 N Nm F.
    destruct (C77_result enum sched procs hg remove ins out E1 E2 N Nm F) as (o1 & -> & _ & _ & W1 & X1 & Y1).
    destruct (C77_result enum' sched' procs' hg remove ins out E3 E4 N Nm F) as (o2 & -> & _ & _ & W2 & X2 & Y2).
    split; [reflexivity|]. split; [reflexivity|]. intros p. cbn [fst]. destruct (place_dec p) as [[a ->]|P].
    - destruct (in_dec (list_eq_dec N.eq_dec) a (found ins)) as [I|I]; [|now rewrite (X1 a I), (X2 a I)].
      destruct (text hg ins a) as [t|] eqn:T; [now rewrite (W1 a t I T), (W2 a t I T)|].
      assert (A : forall b, In b (found ins) -> place b = place a -> text hg ins b = None) by (intros b _ E; apply place_inj in E; now subst b). assert (B : forall b, place b = place a -> In b (found ins)) by (intros b E; apply place_inj in E; now subst b). now rewrite (Y1 _ A B), (Y2 _ A B).
    - assert (A : forall b, In b (found ins) -> place b = p -> text hg ins b = None) by (intros b _ E; now destruct (P b)). assert (B : forall b, place b = p -> In b (found ins)) by (intros b E; now destruct (P b)). now rewrite (Y1 _ A B), (Y2 _ A B).
  Qed.

  (** Importing again changes nothing. *)
  Theorem C77_idempotent : forall enum sched procs hg remove ins out, any_order enum -> any_order sched -> NoDup (dkeys out) -> named out ->
    (forall a, In a (found ins) -> fails hg ins a = false) ->
    forall p, dget patheq (fst (import enum sched procs hg remove ins (fst (import enum sched procs hg remove ins out)))) p
      = dget patheq (fst (import enum sched procs hg remove ins out)) p.
  Proof.
    intros enum sched procs hg remove ins out E1 E2 N Nm F.
    destruct (C77_result enum sched procs hg remove ins out E1 E2 N Nm F) as (o1 & -> & N1 & Nm1 & W1 & X1 & Y1). cbn [fst].
    destruct (C77_result enum sched procs hg remove ins o1 E1 E2 N1 Nm1 F) as (o2 & -> & _ & _ & W2 & X2 & Y2). cbn [fst]. intros p. destruct (place_dec p) as [[a ->]|P].
    - destruct (in_dec (list_eq_dec N.eq_dec) a (found ins)) as [I|I]; [|rewrite (X2 a I); destruct remove; [now rewrite (X1 a I)|reflexivity]].
      destruct (text hg ins a) as [t|] eqn:T; [now rewrite (W1 a t I T), (W2 a t I T)|].
      assert (A : forall b, In b (found ins) -> place b = place a -> text hg ins b = None) by (intros b _ E; apply place_inj in E; now subst b). assert (B : forall b, place b = place a -> In b (found ins)) by (intros b E; apply place_inj in E; now subst b). now rewrite (Y2 _ A B).
    - assert (A : forall b, In b (found ins) -> place b = p -> text hg ins b = None) by (intros b _ E; now destruct (P b)). assert (B : forall b, place b = p -> In b (found ins)) by (intros b E; now destruct (P b)). now rewrite (Y2 _ A B).
  Qed.

  (** Whatever fails: with a pool, the file of a locale is the new one or as it was, nothing is raised, and the rest is as when
      nothing fails. *)
  Theorem C77_pool_failures : forall enum sched procs hg remove ins out, any_order enum -> any_order sched -> NoDup (dkeys out) -> named out -> 0 < procs ->
    exists out', import enum sched procs hg remove ins out = (out', None) /\
      (forall a, In a (found ins) -> dget patheq out' (place a) = dget patheq out (place a) \/ exists t, text hg ins a = Some t /\ dget patheq out' (place a) = Some t) /\
      (forall a, ~ In a (found ins) -> dget patheq out' (place a) = if remove then None else dget patheq out (place a)) /\
      (forall p, (forall a, place a <> p) -> dget patheq out' p = dget patheq out p).
  Proof.
    intros enum sched procs hg remove ins out E1 E2 N Nm Pp. destruct (run_pool_some enum sched procs hg ins out E1 E2 Pp) as (l & Il & Er).
    assert (Same : forall p, (forall a, In a (found ins) -> place a <> p) -> dget patheq (go hg ins l out) p = dget patheq out p).
    { intros p P. apply go_get. intros a I E. exfalso. apply (P a); [now apply Il|exact E]. }
    destruct (import_run enum sched procs hg remove ins out _ E1 N Nm Er (go_NoDup hg ins l out N) Same) as (out2 & Ei & N2 & G).
    exists out2. split; [exact Ei|]. split; [|split].
    - intros a I. rewrite (no_remove _ _ _ _ _ G (place a)) by (intros b E; apply place_inj in E; now subst b).
      destruct (in_dec (list_eq_dec N.eq_dec) a l) as [J|J].
      + destruct (text hg ins a) as [t|] eqn:T; [right; exists t; split; [reflexivity|now apply go_text]|]. left. apply go_get. intros b _ E. apply place_inj in E. now subst b.
      + left. apply go_get. intros b B E. apply place_inj in E. now subst b.
    - intros a F'. now apply (removed _ _ _ _ _ G Same).
    - intros p P. rewrite (no_remove _ _ _ _ _ G p) by (intros b E; now destruct (P b)). apply Same. intros a _. apply P.
  Qed.

  (** With --single an exception stops the import, and nothing is removed. *)
  Lemma single_some hg ins l : forall out, exists l', (forall a, In a l' -> In a l) /\ fst (run_single build ser hg ins l out) = go hg ins l' out /\
     ((exists a, In a l /\ fails hg ins a = true) -> exists e, snd (run_single build ser hg ins l out) = Some e).
  Proof.
    induction l as [|a l IH]; intros out; [exists []; split; [auto|]; split; [reflexivity|intros (a & [] & _)]|]. cbn [run_single].
    pose proof (doit_fails hg ins a out) as F. destruct (doit hg ins a out) as [out' [e|]] eqn:E.
    - exists [a]. split; [intros b [->|[]]; now left|]. split; [cbn; now rewrite E|]. intros _. now exists e.
    - destruct (IH out') as (l' & I & G & X). exists (a :: l'). split; [intros b [->|B]; [now left|right; auto]|]. split; [cbn [go fold_left]; now rewrite E|].
      intros (b & [->|B] & Fb); [|apply X; eauto]. exfalso. apply F in Fb. destruct Fb as [e Fb]. discriminate.
  Qed.
  Theorem C77_single_stops : forall enum sched hg remove ins out a, any_order enum -> In a (found ins) -> fails hg ins a = true ->
    (exists e, snd (import enum sched 0 hg remove ins out) = Some e) /\
    (forall b, In b (found ins) -> dget patheq (fst (import enum sched 0 hg remove ins out)) (place b) = dget patheq out (place b)
       \/ exists t, text hg ins b = Some t /\ dget patheq (fst (import enum sched 0 hg remove ins out)) (place b) = Some t) /\
    (forall p, (forall b, In b (found ins) -> place b <> p) -> dget patheq (fst (import enum sched 0 hg remove ins out)) p = dget patheq out p).
  Proof.
    intros enum sched hg remove ins out a E1 I F. unfold M_Import.import. destruct (single_some hg ins (enum (to_set (found ins))) out) as (l & Il & G & X).
    assert (Ie : forall a, In a (enum (to_set (found ins))) <-> In a (found ins)).
    { intros b. rewrite <- (to_set_In (found ins) b). split; apply Permutation_in; [apply E1|symmetry; apply E1]. }
    destruct X as [e X]; [exists a; split; [now apply Ie|exact F]|]. rewrite X. split; [now exists e|]. rewrite G. split.
    - intros b B. destruct (in_dec (list_eq_dec N.eq_dec) b l) as [J|J].
      + destruct (text hg ins b) as [t|] eqn:T; [right; exists t; split; [reflexivity|now apply go_text]|]. left. apply go_get. intros c _ E. apply place_inj in E. now subst c.
      + left. apply go_get. intros c B' E. apply place_inj in E. now subst c.
    - intros p P. apply go_get. intros b B E. exfalso. apply (P b); [now apply Ie, Il|exact E].
  Qed.

  (** What is read for a locale: its file in each of the four directories that has it, in this order. *)
  Theorem C77_sources : forall ins a,
    (forall s d, In (s, d) (sources ins a) <-> In s (map lit ["main"; "collation"; "casing"; "segments"]%string) /\ exists l, dget streq ins s = Some l /\ dget streq l (a ++ lit ".xml") = Some d) /\
    exists keep, map fst (sources ins a) = filter keep (map lit ["main"; "collation"; "casing"; "segments"]%string).
  Proof.
    intros ins a. change (map lit _) with subdirs. unfold sources. split.
    - intros s d. rewrite in_flat_map. split.
      + intros (s' & I & J). destruct (dget streq ins s') as [l|] eqn:E; [|easy]. destruct (dget streq l (a ++ dotxml)) as [d'|] eqn:E'; [|easy]. destruct J as [J|[]]. injection J as -> ->. eauto.
      + intros (I & l & E & E'). exists s. split; [exact I|]. rewrite E. change dotxml with (lit ".xml"). rewrite E'. now left.
    - exists (fun s => match dget streq ins s with Some l => match dget streq l (a ++ dotxml) with Some _ => true | None => false end | None => false end).
      induction subdirs as [|s l IH]; [reflexivity|]. cbn [flat_map filter]. rewrite map_app, IH. destruct (dget streq ins s) as [l'|]; [|reflexivity]. now destruct (dget streq l' (a ++ dotxml)).
  Qed.

  (** The locales: the files of the four directories whose name ends in .xml. *)
  Theorem C77_found : forall ins a, In a (found ins) <->
    exists s l f d, In s (map lit ["main"; "collation"; "casing"; "segments"]%string) /\ dget streq ins s = Some l /\ In (f, d) l /\
      exists x, f = a ++ x /\ map low x = lit ".xml".
  Proof.
    intros ins a. change (map lit _) with subdirs. unfold found. rewrite in_flat_map. split.
    - intros (s & I & J). destruct (dget streq ins s) as [l|] eqn:E; [|easy]. apply stems_In in J. destruct J as (f & Jf & X & ->). apply in_map_iff in Jf. destruct Jf as ([f' d] & <- & Jd).
      exists s, l, f', d. split; [exact I|]. split; [exact E|]. split; [exact Jd|]. exists (skipn (length f' - 4) f'). split; [symmetry; apply firstn_skipn|]. now apply streq_true in X.
    - intros (s & l & f & d & I & E & J & x & -> & X). exists s. split; [exact I|]. rewrite E. apply stems_In. exists (a ++ x). assert (Lx : length x = 4) by (rewrite <- (map_length low x), X; reflexivity).
      split; [apply in_map_iff; exists (a ++ x, d); now split|]. unfold is_xml, stem. rewrite app_length, Lx. replace (length a + 4 - 4) with (length a) by lia. rewrite skipn_app_len, firstn_app_len, X. now split.
  Qed.

  (** A locale with one source file is left without references; other attributes stay. *)
  Theorem C77_references : forall d : list (@elem R), (forall e, In e d -> el_from e = 0 /\ NoDup (dkeys (el_attrs e))) ->
    (forall e, In e (strip 0 d) -> dget streq (el_attrs e) (lit "references") = None) /\
    Forall2 (fun e e' => el_rest e' = el_rest e /\ forall k, k <> lit "references" -> dget streq (el_attrs e') k = dget streq (el_attrs e) k) d (strip 0 d).
  Proof.
    intros d H. split.
    - intros e I. unfold strip in I. apply in_map_iff in I. destruct I as (e0 & <- & I). destruct (H e0 I) as [Z Nd]. rewrite Z. cbn [Nat.eqb el_attrs].
      rewrite (dget_ddel streq streq_spec) by exact Nd. destruct (streq_spec (lit "references") (lit "references")); [reflexivity|congruence].
    - unfold strip. induction d as [|e d IH]; [constructor|]. cbn [map]. constructor; [|apply IH; intros e' I; apply H; now right].
      destruct (H e (or_introl eq_refl)) as [Z Nd]. rewrite Z. cbn [Nat.eqb el_attrs el_rest]. split; [reflexivity|]. intros k K. rewrite (dget_ddel streq streq_spec) by exact Nd.
      destruct (streq_spec k (lit "references")); [contradiction|reflexivity].
  Qed.

  (** With --hg no file is written. *)
  Theorem C77_hg : forall enum sched procs ins out, any_order enum -> any_order sched -> forall p,
    dget patheq (fst (import enum sched procs true false ins out)) p = dget patheq out p.
  Proof.
    intros enum sched procs ins out E1 E2 p. unfold M_Import.import.
    assert (Z : forall a, text true ins a = None) by (intros a; unfold T_Import.text; destruct (sources ins a); [reflexivity|]; now destruct (build a _)).
    assert (G : exists l, fst (run enum sched procs true ins out) = go true ins l out).
    { destruct procs as [|n]; cbn [run]; [|eexists; reflexivity]. destruct (single_some true ins (enum (to_set (found ins))) out) as (l & _ & G & _). eauto. }
    destruct G as [l G]. fold (run enum sched procs true ins out). destruct (snd (run enum sched procs true ins out)); rewrite G; apply go_get; intros; apply Z.
  Qed.
End T.

(** ** A tree *)
Definition ex_build (a : pystr) (l : list (pystr * pystr)) : res (list (@elem pystr)) :=
  if existsb (fun p => streq (snd p) (lit "<bad")) l then Raise SyntaxErr
  else Ok (concat (map (fun q => match q with (i, (s, d)) => [El i [(lit "references", lit "R1"); (lit "alt", d)] s] end) (combine (seq 0 (length l)) l))).
Definition ex_ser (d : list (@elem pystr)) : pystr * option exn :=
  (concat (map (fun e => el_rest e ++ concat (map (fun p => fst p ++ lit "=" ++ snd p ++ lit ";") (el_attrs e))) d), None).
Definition ex_ins : list (pystr * list (pystr * pystr)) :=
  [(lit "main", [(lit "aa.xml", lit "A"); (lit "ab.xml", lit "B"); (lit "ba.xml", lit "C"); (lit "README", lit "-")]);
   (lit "collation", [(lit "ab.xml", lit "D")])].
Definition ex_out : list (path * pystr) :=
  [((lit "a", lit "aa.xml"), lit "old"); ((lit "z", lit "za.xml"), lit "gone"); ((lit "z", lit "notes.txt"), lit "kept")].

(** the hypotheses of [C77_result] are met *)
Example C77_ex : any_order (fun l => l) /\ any_order (@rev pystr) /\ NoDup (dkeys ex_out) /\ named ex_out /\ (forall a, In a (found ex_ins) -> fails ex_build ex_ser false ex_ins a = false) /\
  import ex_build ex_ser (fun l => l) (@rev pystr) 2 false true ex_ins ex_out =
    ([((lit "a", lit "aa.xml"), lit "mainalt=A;"); ((lit "z", lit "notes.txt"), lit "kept"); ((lit "a", lit "ab.xml"), lit "mainreferences=R1;alt=B;collationalt=D;");
      ((lit "b", lit "ba.xml"), lit "mainalt=C;")], None).
Proof.
  split; [intros l; reflexivity|]. split; [intros l; symmetry; apply Permutation_rev|]. split; [repeat constructor; cbn; intuition discriminate|].
  split. { intros d f t E X. apply (dget_In patheq patheq_spec) in E. cbn in E. destruct E as [E|[E|[E|[]]]]; injection E as <- <- <-; vm_compute in X |- *; congruence. }
  split; [|vm_compute; reflexivity]. intros a I. vm_compute in I. repeat (destruct I as [<-|I]; [vm_compute; reflexivity|]). destruct I.
Qed.

(** ** What does not hold *)
(** After the import no references are left: false of a locale with two files, where those of the first stay. *)
Theorem C77_references_refuted : exists (ins : list (pystr * list (pystr * pystr))) a d, In a (found ins) /\ ex_build a (sources ins a) = Ok d /\
  exists e, In e (strip (length (sources ins a) - 1) d) /\ dget streq (el_attrs e) (lit "references") <> None.
Proof.
  exists ex_ins, (lit "ab"). eexists. split; [vm_compute; auto|]. split; [vm_compute; reflexivity|]. eexists. split; [left; reflexivity|]. vm_compute. discriminate.
Qed.
(** A locale that does not fail is written: false. Another locale of its chunk may fail, and nothing is reported. *)
Theorem C77_chunk_refuted : exists enum sched procs ins out a t, any_order enum /\ any_order sched /\ 0 < procs /\ In a (found ins) /\
  fails ex_build ex_ser false ins a = false /\ text ex_build ex_ser false ins a = Some t /\
  dget patheq (fst (import ex_build ex_ser enum sched procs false false ins out)) (place a) = None /\
  snd (import ex_build ex_ser enum sched procs false false ins out) = None.
Proof.
  exists (fun l => l), (fun l => l), 1, [(lit "main", [(lit "aa.xml", lit "<bad"); (lit "ab.xml", lit "B"); (lit "ac.xml", lit "C"); (lit "ad.xml", lit "D"); (lit "ae.xml", lit "E")])], [], (lit "ab"), (lit "mainalt=B;").
  split; [intros l; reflexivity|]. split; [intros l; reflexivity|]. split; [constructor|]. vm_compute. repeat split; auto.
Qed.
(** After --remove every .xml file in the output is of a locale of the source: false of a file in another directory than
    that of its first letter, or ending in .XML. *)
Theorem C77_misplaced_refuted : exists out p t, (forall a, In a (found ex_ins) -> fails ex_build ex_ser false ex_ins a = false) /\
  dget patheq (fst (import ex_build ex_ser (fun l => l) (fun l => l) 2 false true ex_ins out)) p = Some t /\
  is_xml (snd p) = true /\ ~ In (stem (snd p)) (found ex_ins).
Proof.
  exists [((lit "a", lit "za.xml"), lit "gone")], (lit "a", lit "za.xml"), (lit "gone"). split; [|split; [vm_compute; reflexivity|split; [vm_compute; reflexivity|]]].
  - intros a I. vm_compute in I. repeat (destruct I as [<-|I]; [vm_compute; reflexivity|]). destruct I.
  - vm_compute. intuition discriminate.
Qed.
(** Each locale that is found is written: false of a source called ab.XML, which also keeps an old ab.xml from being removed. *)
Theorem C77_upper_refuted : exists (ins : list (pystr * list (pystr * pystr))) a, In a (found ins) /\ fails ex_build ex_ser false ins a = false /\
  dget patheq (fst (import ex_build ex_ser (fun l => l) (fun l => l) 0 false true ins [])) (place a) = None /\
  dget patheq (fst (import ex_build ex_ser (fun l => l) (fun l => l) 0 false true ins [(place a, lit "old")])) (place a) = Some (lit "old").
Proof. exists [(lit "main", [(lit "ab.XML", lit "B")])], (lit "ab"). vm_compute. repeat split; auto. Qed.
