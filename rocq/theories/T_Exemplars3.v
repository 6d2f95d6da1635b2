(** C41: the classes the clusters are put into. *)
From Coq Require Import String Permutation Sorting.Sorted.
From Verif Require Import Py PyFacts M_UnicodeSets P_UnicodeSets M_Exemplars T_Exemplars T_Exemplars2.
Local Open Scope list_scope.
Local Open Scope nat_scope.

(** ** Specification *)
Section Spec.
  Variable u : ucd.
  (** the first character of the base decides *)
  Definition is_punct_ex (e : exemplar) : bool := match fst e with c :: _ => ispunct u c | [] => false end.
  Definition is_digit_ex (e : exemplar) : bool :=
    match fst e with c :: _ => u_number u c | [] => false end && match snd e with [] => true | _ => false end.
  (** what is neither punctuation nor a digit *)
  Definition letter (e : exemplar) : bool := negb (is_punct_ex e) && negb (is_digit_ex e).
  Definition base_ignorable (e : exemplar) : bool := match fst e with c :: _ => u_ignorable u c | [] => false end.
End Spec.
(** the clusters as [process] makes them: each once, none without a base *)
Definition clusters_ok (cl : counter) : Prop := NoDup (dkeys cl) /\ forall e, In e (dkeys cl) -> fst e <> [].

(** ** Deleting from the table *)
Lemma cdel_filter cl e : NoDup (dkeys cl) -> cdel cl e = filter (fun kv => negb (ex_eqb e (fst kv))) cl.
Proof.
  unfold cdel, dkeys. induction cl as [|[k v] cl IH]; cbn; [auto|]. intros ND. inversion ND as [|? ? Hn ND']; subst.
  destruct (ex_eqb_spec e k) as [->|H]; cbn; [|now rewrite IH].
  clear -Hn. induction cl as [|[k' v'] cl IH]; cbn; [reflexivity|]. cbn in Hn.
  destruct (ex_eqb_spec k k') as [->|H]; [exfalso; apply Hn; now left|]. cbn. rewrite <- IH; [reflexivity|]. intros H'. apply Hn. now right.
Qed.
Lemma filter_NoDup_keys f (cl : counter) : NoDup (dkeys cl) -> NoDup (dkeys (filter f cl)).
Proof.
  unfold dkeys. induction cl as [|[k v] cl IH]; cbn; [auto|]. intros ND. inversion ND as [|? ? Hn ND']; subst.
  destruct (f (k, v)); cbn; [|auto]. constructor; [|auto]. intros H. apply Hn.
  apply in_map_iff in H. destruct H as (kv & E & H). apply filter_In in H. apply in_map_iff. exists kv. tauto.
Qed.
Lemma filter_filter {A} (f g : A -> bool) l : filter f (filter g l) = filter (fun x => g x && f x)%bool l.
Proof. induction l as [|x l IH]; cbn; [reflexivity|]. destruct (g x); cbn; rewrite IH; reflexivity. Qed.
Definition del_all (f : exemplar -> bool) (es : list exemplar) (cl : counter) : counter :=
  fold_left (fun cl e => if f e then cdel cl e else cl) es cl.
Lemma del_all_filter f : forall es cl, NoDup (dkeys cl) ->
  del_all f es cl = filter (fun kv => negb (existsb (fun e => f e && ex_eqb e (fst kv)) es))%bool cl.
Proof.
  unfold del_all. induction es as [|e es IH]; intros cl ND; cbn [fold_left existsb].
  - cbn. induction cl as [|kv cl IHc]; cbn; [reflexivity|]. f_equal. apply IHc. now inversion ND.
  - destruct (f e) eqn:Ef.
    + rewrite IH by now apply cdel_NoDup. rewrite cdel_filter by exact ND. rewrite filter_filter.
      apply filter_ext. intros kv. cbn [andb]. now rewrite Bool.negb_orb.
    + rewrite IH by exact ND. apply filter_ext. intros kv. reflexivity.
Qed.
Lemma del_all_keys f cl : NoDup (dkeys cl) ->
  del_all f (dkeys cl) cl = filter (fun kv => negb (f (fst kv))) cl.
Proof.
  intros ND. rewrite del_all_filter by exact ND. apply filter_ext_in. intros kv Hkv. f_equal.
  destruct (f (fst kv)) eqn:E.
  - apply existsb_exists. exists (fst kv). split; [now apply in_map|]. rewrite E. now destruct (ex_eqb_spec (fst kv) (fst kv)).
  - destruct (existsb _ (dkeys cl)) eqn:Ex; [|reflexivity]. apply existsb_exists in Ex. destruct Ex as (e & _ & H).
    apply andb_prop in H. destruct H as [H1 H2]. destruct (ex_eqb_spec e (fst kv)); congruence.
Qed.
Lemma in_keys_filter (f : exemplar * nat -> bool) cl e : In e (dkeys (filter f cl)) <-> exists n, In (e, n) cl /\ f (e, n) = true.
Proof.
  unfold dkeys. rewrite in_map_iff. split.
  - intros ([k n] & <- & H). apply filter_In in H. exists n. exact H.
  - intros (n & H). exists (e, n). split; [reflexivity|]. now apply filter_In.
Qed.
Lemma in_keys (cl : counter) e : In e (dkeys cl) <-> exists n : nat, In (e, n) cl.
Proof.
  unfold dkeys. rewrite in_map_iff. split.
  - intros ([k n] & <- & H). eauto.
  - intros (n & H). exists (e, n). auto.
Qed.

(** ** The passes before the splitting *)
Section Passes.
  Variable u : ucd.

  Definition gather (f : exemplar -> bool) (es : list exemplar) (p : list pystr) : list pystr :=
    fold_left (fun p e => if f e then sadd p (fst e) else p) es p.
  Lemma in_gather f : forall es p x, In x (gather f es p) <-> In x p \/ exists e, In e es /\ f e = true /\ fst e = x.
  Proof.
    unfold gather. induction es as [|e es IH]; intros p x; cbn [fold_left].
    - split; [auto|]. intros [H|(e & [] & _)]; exact H.
    - rewrite IH. destruct (f e) eqn:Ef.
      + rewrite in_sadd. split.
        * intros [[H| ->]|(e' & H & R)]; [auto|right; exists e; cbn; auto|right; exists e'; cbn; auto].
        * intros [H|(e' & [<-|H] & E & F)]; [auto|left; right; auto|right; exists e'; auto].
      + split.
        * intros [H|(e' & H & R)]; [auto|right; exists e'; cbn; auto].
        * intros [H|(e' & [<-|H] & E & F)]; [auto|congruence|right; exists e'; auto].
  Qed.

  Lemma find_punctuation_eq : forall cl p, clusters_ok cl ->
    find_punctuation u cl p = Ok (filter (fun kv => negb (is_punct_ex u (fst kv))) cl, gather (is_punct_ex u) (dkeys cl) p).
  Proof.
    intros cl p [ND Hb]. rewrite <- del_all_keys by exact ND. unfold find_punctuation.
    assert (G : forall es cl0 p0, (forall e, In e es -> fst e <> []) ->
      fold_left (fun r e => do (cl, p) <- r; do c <- base0 e; Ok (if ispunct u c then (cdel cl e, sadd p (fst e)) else (cl, p)))
        es (Ok (cl0, p0)) = Ok (del_all (is_punct_ex u) es cl0, gather (is_punct_ex u) es p0)).
    { induction es as [|e es IH]; intros cl0 p0 H; [reflexivity|]. cbn [fold_left].
      assert (He : fst e <> []) by (apply H; now left).
      assert (Hes : forall e, In e es -> fst e <> []) by (intros; apply H; now right).
      unfold del_all, gather. cbn [fold_left]. fold (del_all (is_punct_ex u)) (gather (is_punct_ex u)).
      unfold base0. destruct (fst e) as [|c b] eqn:Eb; [congruence|]. cbn [bind].
      assert (Hp : is_punct_ex u e = ispunct u c) by (unfold is_punct_ex; now rewrite Eb). rewrite Hp.
      destruct (ispunct u c) eqn:Ep; rewrite IH by exact Hes; reflexivity. }
    apply G. exact Hb.
  Qed.
  Lemma find_numbers_eq : forall cl p, clusters_ok cl ->
    find_numbers u cl p = Ok (filter (fun kv => negb (is_digit_ex u (fst kv))) cl, gather (is_digit_ex u) (dkeys cl) p).
  Proof.
    intros cl p [ND Hb]. rewrite <- del_all_keys by exact ND. unfold find_numbers.
    assert (G : forall es cl0 p0, (forall e, In e es -> fst e <> []) ->
      fold_left (fun r e => do (cl, p) <- r;
        do c <- match fst e with c :: _ => Ok c | [] => Raise TypeError end;
        Ok (if (u_number u c && match snd e with [] => true | _ => false end)%bool
            then (cdel cl e, sadd p (fst e)) else (cl, p)))
        es (Ok (cl0, p0)) = Ok (del_all (is_digit_ex u) es cl0, gather (is_digit_ex u) es p0)).
    { induction es as [|e es IH]; intros cl0 p0 H; [reflexivity|]. cbn [fold_left].
      assert (He : fst e <> []) by (apply H; now left).
      assert (Hes : forall e, In e es -> fst e <> []) by (intros; apply H; now right).
      unfold del_all, gather. cbn [fold_left]. fold (del_all (is_digit_ex u)) (gather (is_digit_ex u)).
      destruct (fst e) as [|c b] eqn:Eb; [congruence|]. cbn [bind].
      assert (Hp : is_digit_ex u e = (u_number u c && match snd e with [] => true | _ => false end)%bool) by (unfold is_digit_ex; now rewrite Eb). rewrite Hp.
      destruct (u_number u c && _)%bool eqn:Ep; rewrite IH by exact Hes; reflexivity. }
    apply G. exact Hb.
  Qed.

  (** *** the marks *)
  Lemma count_marks_In : forall cl bm m, In m (dkeys (count_marks u cl bm)) <->
    In m (dkeys bm) \/ exists e, In e (dkeys cl) /\ In m (snd e) /\ u_mark u m = true.
  Proof.
    intros cl. unfold count_marks. generalize (dkeys cl) as es.
    assert (G : forall b ts (bm : list (N * list pystr)) m,
      In m (dkeys (fold_left (fun bm t => if u_mark u t then
          dset N.eqb bm t (match dget N.eqb bm t with Some bs => sadd bs b | None => sadd [] b end)
        else bm) ts bm)) <-> In m (dkeys bm) \/ (In m ts /\ u_mark u m = true)).
    { intros b. induction ts as [|t ts IH]; intros bm m; cbn [fold_left]; [cbn; tauto|].
      rewrite IH. destruct (u_mark u t) eqn:Et.
      - rewrite (in_dkeys_dset _ N.eqb_spec). cbn [In]. intuition (subst; auto).
      - cbn [In]. intuition (subst; auto; congruence). }
    induction es as [|e es IH]; intros bm m; cbn [fold_left].
    - split; [auto|]. intros [H|(e & [] & _)]; exact H.
    - rewrite IH, G. split.
      + intros [[H|[H1 H2]]|(e' & H & R)]; [auto|right; exists e; cbn; auto|right; exists e'; cbn; auto].
      + intros [H|(e' & [<-|H] & R1 & R2)]; [auto|left; right; auto|right; exists e'; auto].
  Qed.

  Lemma loop_sound many bm : forall fuel cl asm cl' asm', NoDup (dkeys cl) ->
    split_loop u fuel many bm cl asm = Ok (cl', asm') ->
    steps cl cl' /\ forall e, In e (dkeys cl') -> fst e <> [] -> settled u many bm e.
  Proof.
    induction fuel as [|fuel IH]; intros cl asm cl' asm' ND E; cbn [split_loop] in E; [discriminate|].
    destruct (split_round u many bm cl asm) as [[c1 a1] need] eqn:E1.
    destruct (round_spec u _ _ _ _ _ _ _ ND E1) as (A & B & C). destruct need.
    - destruct (IH c1 a1 cl' asm') as [S1 D1]; [eapply steps_NoDup; eauto|exact E|].
      split; [eapply steps_trans; eauto|exact D1].
    - injection E as <- <-. destruct (B eq_refl) as [-> D]. split; [constructor|exact D].
  Qed.

  (** ** The passes after the splitting *)
  Definition odd_trailer (bm : list (N * list pystr)) (e : exemplar) : bool :=
    existsb (fun t => negb (dmem N.eqb bm t)) (snd e).
  Lemma cdel_idem cl e : NoDup (dkeys cl) -> cdel (cdel cl e) e = cdel cl e.
  Proof.
    intros ND. rewrite (cdel_filter (cdel cl e)) by now apply cdel_NoDup. rewrite (cdel_filter cl) by exact ND.
    rewrite filter_filter. apply filter_ext. intros kv. now destruct (ex_eqb e (fst kv)).
  Qed.
  Lemma parcel_marks_spec bm cl aux cl' aux' : NoDup (dkeys cl) -> parcel_marks bm cl aux = (cl', aux') ->
    cl' = filter (fun kv => negb (odd_trailer bm (fst kv))) cl
    /\ forall x, In x aux' <-> In x aux \/ exists e t, In e (dkeys cl) /\ In t (snd e) /\ dmem N.eqb bm t = false /\ x = [t].
  Proof.
    intros ND. rewrite <- del_all_keys by exact ND. unfold parcel_marks.
    assert (G : forall e ts cl aux, NoDup (dkeys cl) ->
      fold_left (fun (st : counter * list pystr) t => let '(cl, aux) := st in
        if dmem N.eqb bm t then (cl, aux) else (cdel cl e, sadd aux [t])) ts (cl, aux)
      = (if existsb (fun t => negb (dmem N.eqb bm t)) ts then cdel cl e else cl,
         fold_left (fun aux t => if dmem N.eqb bm t then aux else sadd aux [t]) ts aux)).
    { intros e. induction ts as [|t ts IH]; intros cl0 aux0 ND0; [reflexivity|]. cbn [fold_left existsb].
      destruct (dmem N.eqb bm t); cbn [negb orb]; [now apply IH|].
      rewrite IH by now apply cdel_NoDup. rewrite cdel_idem by exact ND0. now destruct (existsb _ ts). }
    assert (GA : forall ts aux x, In x (fold_left (fun aux t => if dmem N.eqb bm t then aux else sadd aux [t]) ts aux) <->
      In x aux \/ exists t, In t ts /\ dmem N.eqb bm t = false /\ x = [t]).
    { induction ts as [|t ts IH]; intros a x; cbn [fold_left].
      - split; [auto|]. intros [H|(t & [] & _)]; exact H.
      - rewrite IH. destruct (dmem N.eqb bm t) eqn:E.
        + split; [intros [H|(t' & H & R)]; [auto|right; exists t'; cbn; auto]|].
          intros [H|(t' & [<-|H] & R1 & R2)]; [auto|congruence|right; exists t'; auto].
        + rewrite in_sadd. split; [intros [[H| ->]|(t' & H & R)]; [auto|right; exists t; cbn; auto|right; exists t'; cbn; auto]|].
          intros [H|(t' & [<-|H] & R1 & R2)]; [auto|auto|right; exists t'; auto]. }
    assert (F : forall es cl aux, NoDup (dkeys cl) ->
      let r := fold_left (fun st e => fold_left (fun (st : counter * list pystr) t => let '(cl, aux) := st in
        if dmem N.eqb bm t then (cl, aux) else (cdel cl e, sadd aux [t])) (snd e) st) es (cl, aux) in
      fst r = del_all (odd_trailer bm) es cl
      /\ forall x, In x (snd r) <-> In x aux \/ exists e t, In e es /\ In t (snd e) /\ dmem N.eqb bm t = false /\ x = [t]).
    { induction es as [|e es IH]; intros cl0 aux0 ND0; cbn zeta; cbn [fold_left].
      - split; [reflexivity|]. intros x. split; [auto|]. intros [H|(e & t & [] & _)]. exact H.
      - rewrite G by exact ND0.
        destruct (IH (if existsb (fun t => negb (dmem N.eqb bm t)) (snd e) then cdel cl0 e else cl0)
                     (fold_left (fun aux t => if dmem N.eqb bm t then aux else sadd aux [t]) (snd e) aux0)) as [A B].
        { destruct (existsb _ _); [now apply cdel_NoDup|exact ND0]. }
        cbn zeta in A, B. split; [rewrite A; reflexivity|]. intros x. rewrite B, GA. split.
        + intros [[H|(t & H)]|(e' & t & H & R)]; [auto|right; exists e, t; cbn; tauto|right; exists e', t; cbn; auto].
        + intros [H|(e' & t & [<-|H] & R)]; [auto|left; right; exists t; exact R|right; exists e', t; auto]. }
    intros E. specialize (F (dkeys cl) cl aux ND). cbn zeta in F. rewrite E in F. cbn [fst snd] in F. exact F.
  Qed.

  (** the clusters up to the first one without a base *)
  Fixpoint before_marks (es : list exemplar) : list exemplar :=
    match es with
    | [] => []
    | e :: es' => match fst e with [] => [] | _ => e :: before_marks es' end
    end.
  Lemma before_marks_sub es e : In e (before_marks es) -> In e es.
  Proof.
    induction es as [|e' es IH]; cbn; [auto|]. destruct (fst e'); [intros []|]. cbn. intuition.
  Qed.
  Lemma parcel_ignorable_eq : forall es cl aux,
    parcel_ignorable_from u es cl aux
    = (del_all (base_ignorable u) (before_marks es) cl, gather (base_ignorable u) (before_marks es) aux).
  Proof.
    induction es as [|e es IH]; intros cl aux; cbn [parcel_ignorable_from before_marks]; [reflexivity|].
    destruct (fst e) as [|c b] eqn:Eb; [reflexivity|].
    unfold del_all, gather. cbn [fold_left]. fold (del_all (base_ignorable u)) (gather (base_ignorable u)).
    assert (Hp : base_ignorable u e = u_ignorable u c) by (unfold base_ignorable; now rewrite Eb). rewrite Hp.
    destruct (u_ignorable u c); rewrite IH; rewrite ?Eb; reflexivity.
  Qed.

  Lemma parcel_frequency_spec frequent cl0 : forall cl main aux main' aux',
    fold_left (fun (st : list pystr * list pystr) (kv : exemplar * nat) =>
      let '(main, aux) := st in
      let t := ex_text (fst kv) in
      if streq t [1600%N] then (main, sadd aux t)
      else if often frequent cl0 (snd kv) then (sadd main t, aux)
      else (main, sadd aux t)) cl (main, aux) = (main', aux') ->
    (forall x, In x main' <-> In x main \/ exists e n, In (e, n) cl /\ ex_text e = x /\ x <> [1600%N] /\ often frequent cl0 n = true)
    /\ (forall x, In x aux' <-> In x aux \/ exists e n, In (e, n) cl /\ ex_text e = x /\ (x = [1600%N] \/ often frequent cl0 n = false)).
  Proof.
    induction cl as [|[k v] cl IH]; intros main aux main' aux' E; cbn [fold_left fst snd] in E.
    - injection E as <- <-. split; intros x; (split; [auto|]); intros [H|(e & n & [] & _)]; exact H.
    - destruct (streq_spec (ex_text k) [1600%N]) as [Et|Et]; [|destruct (often frequent cl0 v) eqn:Eo];
        destruct (IH _ _ _ _ E) as [A B]; split; intros x; rewrite ?A, ?B, ?in_sadd; split.
      + intros [H|(e & n & H & R)]; [auto|right; exists e, n; cbn; auto].
      + intros [H|(e & n & [H|H] & R1 & R2 & R3)]; [auto|congruence|right; exists e, n; auto].
      + intros [[H| ->]|(e & n & H & R)]; [auto|right; exists k, v; cbn; auto|right; exists e, n; cbn; auto].
      + intros [H|(e & n & [H|H] & R1 & R2)]; [auto|left; right; congruence|right; exists e, n; auto].
      + intros [[H| ->]|(e & n & H & R)]; [auto|right; exists k, v; cbn; auto|right; exists e, n; cbn; auto].
      + intros [H|(e & n & [H|H] & R1 & R2 & R3)]; [auto|left; right; congruence|right; exists e, n; auto].
      + intros [H|(e & n & H & R)]; [auto|right; exists e, n; cbn; auto].
      + intros [H|(e & n & [H|H] & R1 & R2)]; [auto|injection H as <- <-; destruct R2; congruence|right; exists e, n; auto].
      + intros [H|(e & n & H & R)]; [auto|right; exists e, n; cbn; auto].
      + intros [H|(e & n & [H|H] & R1 & R2 & R3)]; [auto|congruence|right; exists e, n; auto].
      + intros [[H| ->]|(e & n & H & R)]; [auto|right; exists k, v; cbn; auto|right; exists e, n; cbn; auto].
      + intros [H|(e & n & [H|H] & R1 & R2)]; [auto|left; right; congruence|right; exists e, n; auto].
  Qed.

  Lemma make_index_spec toupper main : (forall e, In e main -> e <> []) ->
    exists idx, make_index u toupper main = Ok idx
      /\ forall x, In x idx <-> exists c e, In (c :: e) main /\ u_mark u c = false /\ x = toupper (c :: e).
  Proof.
    intros Hne. unfold make_index.
    assert (G : forall idx, exists idx', fold_left (fun r e => do idx <- r;
      match e with [] => Raise IndexError | c :: _ => Ok (if u_mark u c then idx else sadd idx (toupper e)) end) main (Ok idx) = Ok idx'
      /\ forall x, In x idx' <-> In x idx \/ exists c e, In (c :: e) main /\ u_mark u c = false /\ x = toupper (c :: e)).
    { induction main as [|m main IH]; intros idx; cbn [fold_left].
      - exists idx. split; [reflexivity|]. intros x. split; [auto|]. intros [H|(c & e & [] & _)]. exact H.
      - destruct m as [|c m]; [exfalso; apply (Hne []); [now left|reflexivity]|]. cbn [bind].
        destruct (IH (fun e H => Hne e (or_intror H)) (if u_mark u c then idx else sadd idx (toupper (c :: m)))) as (idx' & E & S).
        exists idx'. split; [exact E|]. intros x. rewrite S. destruct (u_mark u c) eqn:Em.
        + split; [intros [H|(c' & e & H & R)]; [auto|right; exists c', e; cbn; auto]|].
          intros [H|(c' & e & [H|H] & R1 & R2)]; [auto|congruence|right; exists c', e; auto].
        + rewrite in_sadd. split; [intros [[H| ->]|(c' & e & H & R)]; [auto|right; exists c, m; cbn; auto|right; exists c', e; cbn; auto]|].
          intros [H|(c' & e & [H|H] & R1 & R2)]; [auto|injection H as -> ->; auto|right; exists c', e; auto]. }
    destruct (G []) as (idx & E & S). exists idx. split; [exact E|]. intros x. rewrite S. cbn. tauto.
  Qed.
End Passes.

(** ** The whole analysis *)
Section Analysis.
  Variables (u : ucd) (many frequent : nat) (toupper : pystr -> pystr).
  Variable cl : counter.
  Hypothesis Hcl : clusters_ok cl.

  Let cl1 : counter := filter (fun kv => negb (is_punct_ex u (fst kv))) cl.
  Let cl2 : counter := filter (fun kv => letter u (fst kv)) cl.
  Let bm := count_marks u cl2 [].

  Lemma cl2_eq : filter (fun kv => negb (is_digit_ex u (fst kv))) cl1 = cl2.
  Proof. unfold cl1, cl2. rewrite filter_filter. reflexivity. Qed.
  Lemma in_cl2 e : In e (dkeys cl2) <-> In e (dkeys cl) /\ letter u e = true.
  Proof.
    unfold cl2. rewrite in_keys_filter, in_keys. cbn [fst]. split.
    - intros (n & H1 & H2). eauto.
    - intros [[n H1] H2]. eauto.
  Qed.
  Lemma cl1_ok : clusters_ok cl1.
  Proof.
    destruct Hcl as [ND Hb]. split; [now apply filter_NoDup_keys|]. intros e He. apply Hb.
    apply in_keys_filter in He. destruct He as (n & H & _). apply in_keys. eauto.
  Qed.
  Lemma cl2_ok : clusters_ok cl2.
  Proof.
    destruct Hcl as [ND Hb]. split; [now apply filter_NoDup_keys|]. intros e He. apply Hb. now apply in_cl2 in He.
  Qed.

  (** everything there is to know about a result *)
  Record analysed (r : classes) : Prop := {
    an_punct : forall x, In x (c_punct r) <-> exists e, In e (dkeys cl) /\ is_punct_ex u e = true /\ fst e = x;
    an_digits : forall x, In x (c_digits r) <->
      exists e, In e (dkeys cl) /\ is_punct_ex u e = false /\ is_digit_ex u e = true /\ fst e = x;
    an_raw : c_raw r = cl1;
    an_graphemes : c_graphemes r = graphemes_of cl1;
    an_left : exists cl3, steps cl2 cl3 /\ (forall e, In e (dkeys cl3) -> fst e <> [] -> settled u many bm e)
      /\ (forall e n, In (e, n) (c_left r) -> In (e, n) cl3)
      /\ (forall e, In e (dkeys cl3) -> In e (dkeys (c_left r)) \/ odd_trailer bm e = true
            \/ (base_ignorable u e = true /\ In (fst e) (c_aux r)))
      /\ (forall x, In x (c_aux r) <->
            (exists e t, In e (dkeys cl3) /\ In t (snd e) /\ dmem N.eqb bm t = false /\ x = [t])
            \/ (exists e, In e (dkeys cl3) /\ odd_trailer bm e = false /\ base_ignorable u e = true /\ ~ In e (dkeys (c_left r)) /\ fst e = x)
            \/ exists e n, In (e, n) (c_left r) /\ ex_text e = x /\ (x = [1600%N] \/ often frequent (c_left r) n = false));
    an_main : forall x, In x (c_main r) <->
      exists e n, In (e, n) (c_left r) /\ ex_text e = x /\ x <> [1600%N] /\ often frequent (c_left r) n = true;
    an_index : forall x, In x (c_index r) <-> exists c e, In (c :: e) (c_main r) /\ u_mark u c = false /\ x = toupper (c :: e) }.

  (** parts of clusters have a text *)
  Lemma part_text e0 e : fst e0 <> [] -> part_of e0 e -> ex_text e <> [].
  Proof.
    intros Hb [[H1 H2]|(m & _ & ->)]; unfold ex_text; cbn; [|discriminate].
    rewrite H1. destruct (fst e0); [congruence|]. cbn. discriminate.
  Qed.

  Lemma analyze_spec fuel : 
    (forall r, analyze u fuel many frequent toupper cl = Ok r -> analysed r)
    /\ (measure cl2 < fuel -> exists r, analyze u fuel many frequent toupper cl = Ok r).
  Proof.
    unfold analyze. rewrite (find_punctuation_eq u cl [] Hcl). cbn [bind]. fold cl1.
    rewrite (find_numbers_eq u cl1 [] cl1_ok). cbn [bind]. rewrite cl2_eq. fold bm.
    destruct cl2_ok as [ND2 Hb2].
    assert (Hloop : measure cl2 < fuel -> exists cl3 asm, split_loop u fuel many bm cl2 [] = Ok (cl3, asm)).
    { intros Hf. destruct (loop_spec u many bm fuel cl2 [] ND2 Hf) as (c3 & a & E & _). eauto. }
    destruct (split_loop u fuel many bm cl2 []) as [[cl3 asm]|ex] eqn:E3; cbn [bind].
    2:{ split; [discriminate|]. intros Hf. destruct (Hloop Hf) as (c & a & E). discriminate. }
    destruct (loop_sound u many bm fuel cl2 [] cl3 asm ND2 E3) as [S3 D3].
    assert (ND3 := steps_NoDup _ _ S3 ND2).
    destruct (parcel_marks bm cl3 []) as [cl4 aux4] eqn:E4.
    destruct (parcel_marks_spec bm cl3 [] cl4 aux4 ND3 E4) as [K4 A4].
    assert (ND4 : NoDup (dkeys cl4)) by (rewrite K4; now apply filter_NoDup_keys).
    destruct (parcel_ignorable u cl4 aux4) as [cl5 aux5] eqn:E5.
    unfold parcel_ignorable in E5. rewrite parcel_ignorable_eq in E5. injection E5 as K5 A5.
    rewrite del_all_filter in K5 by exact ND4.
    destruct (parcel_frequency frequent cl5 [] aux5) as [main aux] eqn:E6.
    destruct (parcel_frequency_spec frequent cl5 cl5 [] aux5 main aux E6) as [M6 A6].
    assert (Hsub : forall e n, In (e, n) cl5 -> In (e, n) cl3).
    { intros e n H. rewrite <- K5 in H. apply filter_In in H. destruct H as [H _]. rewrite K4 in H.
      apply filter_In in H. tauto. }
    assert (Hmain : forall e, In e main -> e <> []).
    { intros x Hx. apply M6 in Hx. destruct Hx as [[]|(e & n & Hin & <- & _)].
      assert (He3 : In e (dkeys cl3)) by (apply in_keys; eauto).
      destruct (steps_parts cl2 cl3 ND2 S3 e He3) as (e0 & H0 & P). eapply part_text; [|exact P]. now apply Hb2. }
    destruct (make_index_spec u toupper main Hmain) as (idx & E7 & I7). rewrite E7. cbn [bind].
    split; [|eauto]. intros r Hr. injection Hr as <-. constructor; cbn.
    - intros x. rewrite in_gather. cbn. intuition.
    - intros x. rewrite in_gather. split.
      + intros [[]|(e & H & R1 & R2)]. exists e. apply in_keys_filter in H. destruct H as (n & Hn & Hp). cbn in Hp.
        apply Bool.negb_true_iff in Hp. split; [apply in_keys; eauto|]. auto.
      + intros (e & H & R1 & R2 & R3). right. exists e. split; [|auto]. apply in_keys in H. destruct H as [n H].
        apply in_keys_filter. exists n. split; [exact H|]. cbn. now rewrite R1.
    - reflexivity.
    - reflexivity.
    - exists cl3. split; [exact S3|]. split; [exact D3|]. split; [exact Hsub|].
      assert (Hleft : forall e, In e (dkeys cl3) -> In e (dkeys cl5) \/ odd_trailer bm e = true
                 \/ (In e (before_marks (dkeys cl4)) /\ base_ignorable u e = true)).
      { intros e He. destruct (odd_trailer bm e) eqn:Eo; [auto|]. apply in_keys in He. destruct He as [n He].
        assert (H4 : In (e, n) cl4) by (rewrite K4; apply filter_In; cbn; rewrite Eo; auto).
        destruct (existsb (fun e' => base_ignorable u e' && ex_eqb e' e)%bool (before_marks (dkeys cl4))) eqn:Ex.
        - right. right. apply existsb_exists in Ex. destruct Ex as (e' & Hin & H). apply andb_prop in H. destruct H as [H1 H2].
          destruct (ex_eqb_spec e' e); [|discriminate]. subst e'. auto.
        - left. rewrite <- K5. apply in_keys_filter. exists n. split; [exact H4|]. cbn [fst]. now rewrite Ex. }
      assert (Haux5 : forall x, In x aux5 <-> In x aux4 \/ exists e, In e (before_marks (dkeys cl4)) /\ base_ignorable u e = true /\ fst e = x).
      { intros x. rewrite <- A5. apply in_gather. }
      split.
      + intros e He. destruct (Hleft e He) as [H|[H|[H1 H2]]]; [auto|auto|]. right. right. split; [exact H2|].
        apply A6. left. apply Haux5. right. exists e. auto.
      + intros x. rewrite A6, Haux5, A4. split.
        * intros [[[[]|H]|(e & H1 & H2 & H3)]|H]; [auto| |auto]. right. left. exists e.
          assert (H4 : In e (dkeys cl4)) by now apply before_marks_sub.
          rewrite K4 in H4. apply in_keys_filter in H4. destruct H4 as (n & Hn & Ho). cbn in Ho. apply Bool.negb_true_iff in Ho.
          split; [apply in_keys; eauto|]. split; [exact Ho|]. split; [exact H2|]. split; [|exact H3].
          intros H5. rewrite <- K5 in H5. apply in_keys_filter in H5. destruct H5 as (n' & _ & H5). cbn [fst] in H5.
          apply Bool.negb_true_iff in H5. assert (HX : existsb (fun e' => base_ignorable u e' && ex_eqb e' e)%bool (before_marks (dkeys cl4)) = true); [|congruence].
          apply existsb_exists. exists e. split; [exact H1|]. rewrite H2. now destruct (ex_eqb_spec e e).
        * intros [H|[(e & H1 & H2 & H3 & H4 & H5)|H]]; [auto| |auto]. left. right. exists e. split; [|auto].
          destruct (Hleft e H1) as [H|[H|[H _]]]; [contradiction|congruence|exact H].
    - intros x. rewrite M6. cbn. intuition.
    - exact I7.
  Qed.
End Analysis.

(** ** C41 *)

(** The analysis of clusters that all have a base ends without an exception. In particular no
    empty exemplar comes to the index. *)
Theorem C41_ok : forall u many frequent toupper cl, clusters_ok cl ->
  exists bound, forall fuel, bound < fuel -> exists r, analyze u fuel many frequent toupper cl = Ok r.
Proof.
  intros u many frequent toupper cl H. eexists. intros fuel Hf.
  destruct (analyze_spec u many frequent toupper cl H fuel) as [_ A]. apply A. exact Hf.
Qed.

(** Punctuation: the bases of the clusters that begin with punctuation. *)
Theorem C41_punctuation : forall u fuel many frequent toupper cl r, clusters_ok cl ->
  analyze u fuel many frequent toupper cl = Ok r ->
  forall x, In x (c_punct r) <-> exists e, In e (dkeys cl) /\ is_punct_ex u e = true /\ fst e = x.
Proof. intros u fuel many frequent toupper cl r H E. exact (an_punct _ _ _ _ _ _ (proj1 (analyze_spec u many frequent toupper cl H fuel) r E)). Qed.

(** Digits: the bases of the other clusters that are numbers without trailers. *)
Theorem C41_digits : forall u fuel many frequent toupper cl r, clusters_ok cl ->
  analyze u fuel many frequent toupper cl = Ok r ->
  forall x, In x (c_digits r) <->
    exists e, In e (dkeys cl) /\ is_punct_ex u e = false /\ is_digit_ex u e = true /\ fst e = x.
Proof. intros u fuel many frequent toupper cl r H E. exact (an_digits _ _ _ _ _ _ (proj1 (analyze_spec u many frequent toupper cl H fuel) r E)). Qed.

(** The graphemes: the texts of all clusters but the punctuation, the most frequent first. *)
Theorem C41_graphemes : forall u fuel many frequent toupper cl r, clusters_ok cl ->
  analyze u fuel many frequent toupper cl = Ok r ->
  exists l, Permutation (filter (fun kv => negb (is_punct_ex u (fst kv))) cl) l
    /\ StronglySorted (fun a b => snd b <= snd a) l
    /\ (forall n, filter (fun kv => Nat.eqb (snd kv) n) l
                  = filter (fun kv => Nat.eqb (snd kv) n) (filter (fun kv => negb (is_punct_ex u (fst kv))) cl))
    /\ c_graphemes r = map (fun kv => ex_text (fst kv)) l.
Proof.
  intros u fuel many frequent toupper cl r H E.
  pose proof (proj1 (analyze_spec u many frequent toupper cl H fuel) r E) as A.
  set (cl1 := filter (fun kv => negb (is_punct_ex u (fst kv))) cl).
  exists (most_common cl1). split; [|split; [|split]].
  - apply isort_perm.
  - unfold most_common.
    assert (S : StronglySorted (fun a b : exemplar * nat => Nat.leb (snd b) (snd a) = true) (isort (fun a b => Nat.leb (snd b) (snd a)) cl1)).
    { apply isort_sorted.
      - intros a b. rewrite !Nat.leb_le. lia.
      - intros a b c. rewrite !Nat.leb_le. lia. }
    induction S as [|a l S IH F]; constructor; [exact IH|].
    eapply Forall_impl; [|exact F]. intros b Hb. now apply Nat.leb_le.
  - intros n. unfold most_common. apply isort_stable.
    intros x y Hx Hy. apply Nat.eqb_eq in Hx, Hy. apply Nat.leb_le. lia.
  - rewrite (an_graphemes _ _ _ _ _ _ A). reflexivity.
Qed.

(** Main and auxiliary exemplars. Which of the two a cluster that is left comes to is settled
    by how often it occurs, compared with a percentage of the mean. *)
Theorem C41_frequency : forall u fuel many frequent toupper cl r, clusters_ok cl ->
  analyze u fuel many frequent toupper cl = Ok r ->
  (forall x, In x (c_main r) <->
     exists e n, In (e, n) (c_left r) /\ ex_text e = x /\ x <> [1600%N]
       /\ total (c_left r) * frequent < n * 100 * length (c_left r))
  /\ (forall e n, In (e, n) (c_left r) ->
        n * 100 * length (c_left r) <= total (c_left r) * frequent \/ ex_text e = [1600%N] -> In (ex_text e) (c_aux r)).
Proof.
  intros u fuel many frequent toupper cl r H E.
  pose proof (proj1 (analyze_spec u many frequent toupper cl H fuel) r E) as A. split.
  - intros x. rewrite (an_main _ _ _ _ _ _ A). unfold often. split; intros (e & n & H1 & H2 & H3 & H4); exists e, n;
      repeat split; auto; now apply Nat.ltb_lt.
  - intros e n Hin Hc. destruct (an_left _ _ _ _ _ _ A) as (cl3 & _ & _ & _ & _ & X). apply X. right. right.
    exists e, n. repeat split; auto. unfold often. destruct Hc as [Hc|Hc]; [right; now apply Nat.ltb_ge|now left].
Qed.

(** Nothing is invented: what is in main or in auxiliary is a part of a counted cluster that
    is neither punctuation nor a digit: its base with some of its trailers, or one trailer. *)
Theorem C41_sound : forall u fuel many frequent toupper cl r, clusters_ok cl ->
  analyze u fuel many frequent toupper cl = Ok r ->
  forall x, In x (c_main r) \/ In x (c_aux r) ->
  exists e0 e, In e0 (dkeys cl) /\ letter u e0 = true /\ part_of e0 e /\ x = ex_text e.
Proof.
  intros u fuel many frequent toupper cl r H E x Hx.
  pose proof (proj1 (analyze_spec u many frequent toupper cl H fuel) r E) as A.
  destruct (an_left _ _ _ _ _ _ A) as (cl3 & S3 & _ & Sub & _ & X).
  assert (ND2 := proj1 (cl2_ok u cl H)).
  assert (P : forall e, In e (dkeys cl3) -> exists e0, (In e0 (dkeys cl) /\ letter u e0 = true) /\ part_of e0 e).
  { intros e He. destruct (steps_parts _ _ ND2 S3 e He) as (e0 & H0 & P). exists e0. split; [now apply in_cl2|exact P]. }
  assert (L : forall e n, In (e, n) (c_left r) -> In e (dkeys cl3)) by (intros e n Hn; apply in_keys; eauto).
  destruct Hx as [Hx|Hx].
  - apply (an_main _ _ _ _ _ _ A) in Hx. destruct Hx as (e & n & Hin & <- & _).
    destruct (P e (L e n Hin)) as (e0 & [H1 H2] & H3). exists e0, e. auto.
  - apply X in Hx. destruct Hx as [(e & t & He & Ht & _ & ->)|[(e & He & _ & Hi & _ & <-)|(e & n & Hin & <- & _)]].
    + destruct (P e He) as (e0 & [H1 H2] & H3). exists e0, ([], [t]). repeat split; auto.
      right. exists t. split; [|reflexivity]. destruct H3 as [[_ H3]|(m & Hm & ->)]; [eapply subseq_in; eauto|].
      destruct Ht as [<-|[]]. exact Hm.
    + destruct (P e He) as (e0 & [H1 H2] & H3). exists e0, (fst e, []). repeat split; auto.
      * destruct H3 as [[H3 _]|(m & Hm & ->)]; [left; cbn; split; [exact H3|constructor]|].
        cbn in Hi. discriminate.
      * unfold ex_text. cbn. now rewrite app_nil_r.
    + destruct (P e (L e n Hin)) as (e0 & [H1 H2] & H3). exists e0, e. auto.
Qed.

(** Nothing is lost: of every such cluster the base, with some of its trailers, is in main or
    in auxiliary (when the base is ignorable perhaps without the trailers), and every other
    trailer is there by itself. *)
Theorem C41_complete : forall u fuel many frequent toupper cl r, clusters_ok cl ->
  analyze u fuel many frequent toupper cl = Ok r ->
  forall e0, In e0 (dkeys cl) -> letter u e0 = true ->
  (forall t, In t (snd e0) -> u_mark u t = true \/ never_combine u t = true \/ u_ignorable u t = true) ->
  exists t', subseq t' (snd e0)
    /\ ((In (fst e0 ++ t') (c_main r) \/ In (fst e0 ++ t') (c_aux r))
        \/ (base_ignorable u e0 = true /\ In (fst e0) (c_aux r)))
    /\ forall m, In m (snd e0) -> In m t' \/ In [m] (c_main r) \/ In [m] (c_aux r).
Proof.
  intros u fuel many frequent toupper cl r H E e0 H0 Hlet Htr.
  pose proof (proj1 (analyze_spec u many frequent toupper cl H fuel) r E) as A.
  destruct (an_left _ _ _ _ _ _ A) as (cl3 & S3 & D3 & Sub & Keep & X).
  assert (ND2 := proj1 (cl2_ok u cl H)).
  set (cl2 := filter (fun kv => letter u (fst kv)) cl) in *. set (bm := count_marks u cl2 []) in *.
  assert (H2 : In e0 (dkeys cl2)) by (now apply in_cl2).
  destruct (steps_covers _ _ ND2 S3 e0 H2) as (t' & Ht & Hsub & Hm).
  assert (InX : forall e, In e (dkeys (c_left r)) -> In (ex_text e) (c_main r) \/ In (ex_text e) (c_aux r)).
  { intros e He. apply in_keys in He. destruct He as [n He].
    destruct (streq_spec (ex_text e) [1600%N]) as [Et|Et].
    - right. apply X. right. right. exists e, n. auto.
    - destruct (often frequent (c_left r) n) eqn:Eo.
      + left. apply (an_main _ _ _ _ _ _ A). exists e, n. auto.
      + right. apply X. right. right. exists e, n. auto. }
  exists t'. split; [exact Hsub|]. split.
  - assert (Hne : fst e0 <> []) by (apply (proj2 H); exact H0).
    destruct (D3 _ Ht Hne) as (D & _).
    assert (Ho : odd_trailer bm (fst e0, t') = false).
    { unfold odd_trailer. cbn [snd]. destruct (existsb _ t') eqn:Ex; [|reflexivity]. exfalso.
      apply existsb_exists in Ex. destruct Ex as (t & Hin & Hd). apply Bool.negb_true_iff in Hd.
      assert (Hs : In t (snd e0)) by (eapply subseq_in; eauto).
      assert (Hmk : u_mark u t = true).
      { destruct (D t Hin) as [D1 D2]. destruct (Htr t Hs) as [HT|[HT|HT]]; congruence. }
      assert (Hk : In t (dkeys bm)) by (apply count_marks_In; right; exists e0; auto).
      apply (dmem_spec _ N.eqb_spec) in Hk. congruence. }
    destruct (Keep _ Ht) as [K|[K|[K1 K2]]].
    + left. apply (InX (fst e0, t')). exact K.
    + congruence.
    + right. auto.
  - intros m Hin. destruct (Hm m Hin) as [Hm'|Hm']; [now left|right].
    destruct (Keep _ Hm') as [K|[K|[K1 K2]]].
    + apply (InX ([], [m])). exact K.
    + right. apply X. left. exists ([], [m]), m. split; [exact Hm'|]. split; [now left|]. split; [|reflexivity].
      unfold odd_trailer in K. cbn in K. rewrite Bool.orb_false_r in K. now apply Bool.negb_true_iff in K.
    + cbn in K1. discriminate.
Qed.

(** No string is both in main and in auxiliary, unless two of the clusters that are left have
    the same text, or it was put aside: as a trailer that is no mark, or as an ignorable base. *)
Theorem C41_disjoint : forall u fuel many frequent toupper cl r, clusters_ok cl ->
  analyze u fuel many frequent toupper cl = Ok r ->
  forall x, In x (c_main r) -> In x (c_aux r) ->
  (exists e1 e2, In e1 (dkeys (c_left r)) /\ In e2 (dkeys (c_left r)) /\ e1 <> e2 /\ ex_text e1 = x /\ ex_text e2 = x)
  \/ (exists e0 t, In e0 (dkeys cl) /\ letter u e0 = true /\ In t (snd e0) /\ u_mark u t = false /\ x = [t])
  \/ (exists e0, In e0 (dkeys cl) /\ letter u e0 = true /\ base_ignorable u e0 = true /\ x = fst e0).
Proof.
  intros u fuel many frequent toupper cl r H E x Hm Ha.
  pose proof (proj1 (analyze_spec u many frequent toupper cl H fuel) r E) as A.
  destruct (an_left _ _ _ _ _ _ A) as (cl3 & S3 & D3 & Sub & Keep & X).
  assert (ND2 := proj1 (cl2_ok u cl H)). assert (ND3 := steps_NoDup _ _ S3 ND2).
  apply (an_main _ _ _ _ _ _ A) in Hm. destruct Hm as (e1 & n1 & Hin1 & T1 & Hx & O1).
  assert (L : forall e n, In (e, n) (c_left r) -> In e (dkeys cl3)) by (intros e n Hn; apply in_keys; eauto).
  apply X in Ha. destruct Ha as [(e & t & He & Ht & Hd & ->)|[(e & He & _ & Hi & _ & <-)|(e & n & Hin & T & O)]].
  - right. left. destruct (steps_parts _ _ ND2 S3 e He) as (e0 & H0 & P).
    assert (Ht0 : In t (snd e0)).
    { destruct P as [[_ P]|(m & Hm & ->)]; [eapply subseq_in; eauto|]. destruct Ht as [<-|[]]. exact Hm. }
    exists e0, t. assert (H0' := H0). apply in_cl2 in H0'. destruct H0' as [H1 H2]. repeat split; auto.
    destruct (u_mark u t) eqn:Em; [|reflexivity]. exfalso.
    assert (Hk : In t (dkeys (count_marks u (filter (fun kv => letter u (fst kv)) cl) []))) by (apply count_marks_In; right; exists e0; auto).
    apply (dmem_spec _ N.eqb_spec) in Hk. congruence.
  - right. right. destruct (steps_parts _ _ ND2 S3 e He) as (e0 & H0 & P). apply in_cl2 in H0. destruct H0 as [H1 H2].
    destruct P as [[P _]|(m & Hm & ->)]; [|cbn in Hi; discriminate].
    exists e0. unfold base_ignorable in *. rewrite <- P. auto.
  - left. exists e1, e. split; [apply in_keys; eauto|]. split; [apply in_keys; eauto|]. split; [|auto].
    intros <-. destruct O as [O|O]; [congruence|].
    assert (n1 = n); [|congruence].
    pose proof (dget_NoDup_In _ ex_eqb_spec _ _ _ ND3 (Sub _ _ Hin1)). pose proof (dget_NoDup_In _ ex_eqb_spec _ _ _ ND3 (Sub _ _ Hin)). congruence.
Qed.

(** The index: the capitals of what is in main, but for marks by themselves. *)
Theorem C41_index : forall u fuel many frequent toupper cl r, clusters_ok cl ->
  analyze u fuel many frequent toupper cl = Ok r ->
  forall x, In x (c_index r) <-> exists c s, In (c :: s) (c_main r) /\ u_mark u c = false /\ x = toupper (c :: s).
Proof. intros u fuel many frequent toupper cl r H E. exact (an_index _ _ _ _ _ _ (proj1 (analyze_spec u many frequent toupper cl H fuel) r E)). Qed.

(** *** From the text to the classes *)
Lemma cut_trailers u preset maxlen :
  (forall s ps, cut u preset maxlen s ps -> forall p e t, In p ps -> counted p = Some e -> In t (snd e) ->
     t = zwj \/ t = zwnj \/ u_mark u t = true)
  /\ (forall s ps, cut1 u preset maxlen s ps -> forall p e t, In p ps -> counted p = Some e -> In t (snd e) ->
     t = zwj \/ t = zwnj \/ u_mark u t = true).
Proof.
  apply (cut_both u preset maxlen
    (fun s ps _ => forall p e t, In p ps -> counted p = Some e -> In t (snd e) -> t = zwj \/ t = zwnj \/ u_mark u t = true)
    (fun s ps _ => forall p e t, In p ps -> counted p = Some e -> In t (snd e) -> t = zwj \/ t = zwnj \/ u_mark u t = true)).
  - intros p e t [].
  - intros s k ps _ _ _ IH p e t [<-|Hp] Hc Ht; [cbn in Hc; injection Hc as <-; destruct Ht|eauto].
  - auto.
  - intros p e t [].
  - intros c r ps _ _ IH p e t [<-|Hp] Hc Ht; [cbn in Hc; injection Hc as <-; destruct Ht|eauto].
  - intros c r ps _ _ _ IH p e t [<-|Hp] Hc Ht; [discriminate|eauto].
  - intros c tr r ps _ _ T _ IH p e t [<-|Hp] Hc Ht; [|eauto]. cbn in Hc. injection Hc as <-.
    assert (Htr : In t tr).
    { unfold parts in Ht. destruct (nuktas u tr) as [|n]; cbn [snd] in Ht; [exact Ht|].
      rewrite <- (firstn_skipn (S n) tr). apply in_app_iff. auto. }
    destruct T as [[F _]|(ms & -> & F)]; rewrite Forall_forall in F.
    + destruct (F t Htr) as [->|[_ H]]; auto.
    + apply in_app_iff in Htr. destruct Htr as [H|[<-|[]]]; [|auto]. destruct (F t H) as [->|[_ H']]; auto.
Qed.

Lemma grows_NoDup u preset maxlen : forall fuel s st st',
  process_loop u preset maxlen fuel s st = Ok st' -> NoDup (dkeys (p_clusters st)) -> NoDup (dkeys (p_clusters st')).
Proof.
  induction fuel as [|fuel IH]; intros s st st' E ND; destruct s as [|c s]; cbn [process_loop] in E;
    try discriminate; try (injection E as <-; exact ND).
  assert (G : forall s1 st1, NoDup (dkeys (p_clusters st1)) ->
     NoDup (dkeys (p_clusters (snd (single u s1 st1))))).
  { intros s1 st1 ND1. unfold single. destruct s1 as [|c1 s1]; [exact ND1|].
    destruct (ispunct u c1); [now apply cadd_NoDup|]. destruct (negb _); [exact ND1|].
    destruct (cluster_end u s1 1 1) as [len blen]. cbn [snd p_clusters]. now apply cadd_NoDup. }
  destruct (find_multi preset maxlen (c :: s)) as [k|].
  - match type of E with context [single u ?a ?b] => specialize (G a b) end.
    destruct (single u _ _) as [s2 st2]. eapply IH; [exact E|]. apply G. now apply cadd_NoDup.
  - specialize (G (c :: s) st ND). destruct (single u (c :: s) st) as [s2 st2]. eapply IH; [exact E|]. exact G.
Qed.

(** Whatever the text: it is collected and analysed without an exception, and of every piece
    of the text that is counted the base is in punctuation, in digits, in main or in
    auxiliary, there with some of its trailers, and the other trailers by themselves. *)
Theorem C41_text : forall u preset maxlen text many frequent toupper,
  u_ccc u zwj <> 7%N -> u_ccc u zwnj <> 7%N ->
  exists st ps bound, process_loop u preset maxlen (length text) text st0 = Ok st
  /\ cut u preset maxlen text ps
  /\ forall fuel, bound < fuel -> exists r, analyze u fuel many frequent toupper (p_clusters st) = Ok r
  /\ forall p b t, In p ps -> counted p = Some (b, t) ->
     In b (c_punct r) \/ (t = [] /\ In b (c_digits r))
     \/ exists t', subseq t' t
        /\ ((In (b ++ t') (c_main r) \/ In (b ++ t') (c_aux r)) \/ (base_ignorable u (b, t) = true /\ In b (c_aux r)))
        /\ forall m, In m t -> In m t' \/ In [m] (c_main r) \/ In [m] (c_aux r).
Proof.
  intros u preset maxlen text many frequent toupper Hj Hn.
  destruct (C39_segments u preset maxlen text st0 (length text) (le_n _)) as (st & ps & E & C & _ & _ & _ & K).
  assert (Hok : clusters_ok (p_clusters st)).
  { split; [eapply grows_NoDup; [exact E|constructor]|]. intros e He. apply K in He. destruct He as [[]|(p & Hp & Hc)].
    pose proof (C39_faithful u preset maxlen text ps C) as F. rewrite Forall_forall in F. specialize (F p Hp).
    rewrite Hc in F. tauto. }
  destruct (C41_ok u many frequent toupper _ Hok) as [bound B].
  exists st, ps, bound. split; [exact E|]. split; [exact C|]. intros fuel Hf. destruct (B fuel Hf) as [r Er].
  exists r. split; [exact Er|]. intros p b t Hp Hc.
  assert (Hin : In (b, t) (dkeys (p_clusters st))) by (apply K; right; eauto).
  destruct (is_punct_ex u (b, t)) eqn:Ep.
  { left. apply (C41_punctuation u fuel many frequent toupper _ r Hok Er). exists (b, t). auto. }
  destruct (is_digit_ex u (b, t)) eqn:Ed.
  { right. left. split.
    - unfold is_digit_ex in Ed. apply andb_prop in Ed. destruct Ed as [_ Ed]. cbn in Ed. now destruct t.
    - apply (C41_digits u fuel many frequent toupper _ r Hok Er). exists (b, t). auto. }
  right. right. apply (C41_complete u fuel many frequent toupper _ r Hok Er (b, t) Hin).
  - unfold letter. now rewrite Ep, Ed.
  - intros m Hm. destruct (proj1 (cut_trailers u preset maxlen) _ _ C p (b, t) m Hp Hc Hm) as [->|[->|H]]; [right; left|right; left|now left].
    + unfold never_combine, isnukta. apply N.eqb_neq in Hj. rewrite Hj. reflexivity.
    + unfold never_combine, isnukta. apply N.eqb_neq in Hn. rewrite Hn. reflexivity.
Qed.

(** *** Examples, and what does not hold *)
(** "ka" with a vowel sign, twice, a danda, a digit *)
Example C41_ex :
  let cl := [(([2325], [2366])%N, 2); (([2404%N], []), 1); (([2407%N], []), 1)] in
  clusters_ok cl /\
  match analyze u_indic 10 5 1 (fun x => x) cl with
  | Ok r => c_main r = [[2366%N]; [2325%N]] /\ c_aux r = [] /\ c_punct r = [[2404%N]] /\ c_digits r = [[2407%N]]
      /\ c_index r = [[2325%N]] /\ c_graphemes r = [[2325; 2366]%N; [2407%N]]
  | Raise _ => False
  end.
Proof.
  cbn zeta. split; [split; [repeat constructor; cbn; intuition congruence|]|now vm_compute].
  intros e [<-|[<-|[<-|[]]]]; cbn; discriminate.
Qed.

(** The analysis cannot be made a second time: what the first has left has marks without a
    base, on which the second fails. *)
Theorem C41_again_refuted : exists cl r, clusters_ok cl /\ analyze u_indic 10 5 1 (fun x => x) cl = Ok r
  /\ forall fuel, analyze u_indic fuel 5 1 (fun x => x) (c_left r) = Raise IndexError.
Proof.
  exists [(([2325], [2366])%N, 2)]. eexists. split; [|split; [vm_compute; reflexivity|]].
  - split; [repeat constructor; cbn; intuition congruence|]. intros e [<-|[]]; cbn; discriminate.
  - intros fuel. reflexivity.
Qed.

(** An ignorable character (here the soft hyphen) is put into auxiliary only as long as no
    mark without a base comes before it in the table. *)
Theorem C41_ignorable_refuted : exists cl r, clusters_ok cl /\ analyze u_indic 10 5 1 (fun x => x) cl = Ok r
  /\ base_ignorable u_indic ([173%N], []) = true /\ In [173%N] (c_main r) /\ ~ In [173%N] (c_aux r).
Proof.
  exists [(([2325], [2366])%N, 2); (([173], [2366])%N, 1)]. eexists. split; [|split; [vm_compute; reflexivity|]].
  - split; [repeat constructor; cbn; intuition congruence|]. intros e [<-|[<-|[]]]; cbn; discriminate.
  - cbn. intuition congruence.
Qed.

(** The forms seen only with a capital and those seen only with a small letter. *)
Theorem C41_casing : forall upper lower x,
  dget streq (non_casing upper lower) x
  = match smem x upper, smem x lower with
    | true, false => Some true
    | false, true => Some false
    | _, _ => None
    end.
Proof.
  intros upper lower x. unfold non_casing.
  assert (G : forall (other : list pystr) v l (d : list (pystr * bool)),
    dget streq (fold_left (fun d i => if smem i other then d else dset streq d i v) l d) x
    = if (smem x l && negb (smem x other))%bool then Some v else dget streq d x).
  { intros other v. induction l as [|i l IH]; intros d; cbn [fold_left]; [reflexivity|]. rewrite IH.
    unfold smem at 4. cbn [existsb]. fold (smem x l).
    destruct (streq_spec x i) as [<-|H]; cbn [orb andb].
    - destruct (smem x other); cbn [negb andb]; [now rewrite Bool.andb_false_r|].
      rewrite Bool.andb_true_r. destruct (smem x l); [reflexivity|]. now rewrite (dget_dset_same _ streq_spec).
    - destruct (smem x l && negb (smem x other))%bool; [reflexivity|].
      destruct (smem i other); [reflexivity|]. now rewrite (dget_dset_other _ streq_spec) by congruence. }
  rewrite !G. cbn [dget]. destruct (smem x upper), (smem x lower); reflexivity.
Qed.
