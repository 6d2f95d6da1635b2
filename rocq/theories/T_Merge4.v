(** C37: which of two contents a merge with drafts keeps. *)
From Coq Require Import String.
From Verif Require Import Py PyFacts M_LdmlBase M_Serialize M_Normalise M_Drafts T_Drafts T_Promote T_AddNode M_Merge T_Overlay T_Difference M_Merge3 T_Merge3.
Local Open Scope list_scope.
Local Open Scope nat_scope.

(** [e] is the element [t] with the text and the children of [s] and with the draft [g]; it is not marked as an alternate *)
Record with_content_of (t s : lnode) (g : nat) (e : lnode) : Prop := {
  wc_tag : ltag e = ltag t;
  wc_text : ltext e = ltext s;
  wc_kids : lkids e = lkids s;
  wc_draft : lget e (lit "draft") = nth_error alldrafts g;
  wc_alt : lget e (lit "alt") = None;
  wc_attrs : forall k, k <> lit "draft" -> k <> lit "alt" -> lget e k = lget t k;
  wc_alts : lalts e = lalts t
}.

Section S.
  Variable dd : pystr.
  Variable uid : option pystr.
  Variable winner_other : bool.
  Variable keyof : Z -> Z.
  Variable d : pystr.
  Notation merge3_ := (merge3 dd uid true winner_other (Some d)).

  Lemma take_content_spec t s e g : NoDup (dkeys (lattrs t)) -> In dd alldrafts -> stands dd None s g -> take_content dd t s = Ok e -> with_content_of t s g e.
  Proof.
    intros N D G E. unfold take_content in E. apply (stands_spec dd None s g D) in G. unfold draft3 in E. unfold draft_of in G. rewrite G in E.
    cbn [bind] in E. injection E as <-.
    assert (nth_error alldrafts g = Some (nth g alldrafts [])) as L.
    { apply nth_error_nth'. apply (stands_spec dd None s g D) in G. unfold stands in G. destruct (lget s (lit "draft")).
      - destruct G as [G|[_ ->]]; [apply nth_error_Some; intro Q; rewrite Q in G; discriminate|cbn; lia].
      - apply nth_error_Some. intro Q; rewrite Q in G; discriminate. }
    destruct t as [tg a x k h al ks]. cbn [lattrs] in N. split; unfold lget; cbn [set_hash set_text set_attrs set_kids ltag ltext lkids lattrs lalts]; auto.
    - rewrite (dget_dset_same _ streq_spec). symmetry. exact L.
    - rewrite (dget_dset_other _ streq_spec) by discriminate. rewrite (dget_ddel _ streq_spec) by exact N. reflexivity.
    - intros q Q1 Q2. rewrite (dget_dset_other _ streq_spec) by exact Q1. rewrite (dget_ddel _ streq_spec) by exact N. destruct (streq_spec q (lit "alt")); [contradiction|reflexivity].
  Qed.

  Lemma add_alt_content b t b' : add_alt dd uid (Some d) b t = Ok b' ->
    ltext b' = ltext b /\ lkids b' = lkids b /\ lget b' (lit "draft") = lget b (lit "draft").
  Proof.
    unfold add_alt. cbv zeta. intro E.
    destruct (draft3 dd (set_alts t None) (Some d)) as [od|]; cbn [bind] in E; [|discriminate].
    destruct (draft3 dd b (Some d)) as [td|]; cbn [bind] in E; [|discriminate].
    assert (forall (c : option pystr) a, let b1 := match c with Some _ => set_attrs b (dset streq (lattrs b) (lit "alt") a) | None => b end in
      ltext b1 = ltext b /\ lkids b1 = lkids b /\ lget b1 (lit "draft") = lget b (lit "draft")) as Q.
    { intros c a. destruct c; cbv zeta; [|auto]. destruct b; unfold lget; cbn [set_attrs ltext lkids lattrs]. split; [reflexivity|]. split; [reflexivity|].
      rewrite (dget_dset_other _ streq_spec) by discriminate. reflexivity. }
    assert (forall x al, ltext (set_alts x al) = ltext x /\ lkids (set_alts x al) = lkids x /\ lget (set_alts x al) (lit "draft") = lget x (lit "draft")) as Q2.
    { intros x al. now destruct x. }
    destruct (od <? td).
    - destruct (lalts b); injection E as <-; [|apply Q]. destruct (Q (lget (set_alts t None) (lit "alt")) (alt_name uid None)) as (A & B & C).
      cbv zeta in A, B, C.
      match goal with |- context [set_alts ?x ?al] => destruct (Q2 x al) as (A2 & B2 & C2) end. repeat split; congruence.
    - destruct (lalts b) as [al|]; [|injection E as <-; apply Q2].
      destruct (dget streq al _) as [v|]; [|injection E as <-; apply Q2].
      destruct (draft3 dd v (Some d)) as [vd|]; cbn [bind] in E; [|discriminate].
      destruct (vd <? od); injection E as <-; [auto|apply Q2].
  Qed.
  Lemma no_alts b o t : match o with Some o => lalts o = None | None => True end -> merge_alts dd (Some d) b o t = Ok (t, false).
  Proof. unfold merge_alts. destruct o as [o|]; [|reflexivity]. now intros ->. Qed.

  (** Both documents have an element that the base has not: that of this document stays if it has the better draft, and
      otherwise its content is replaced by that of the other document, also if the drafts are the same. *)
  Theorem C37_both_new : forall this other base r changed k t o gt go go',
    In dd alldrafts ->
    well_formed keyof this -> well_formed keyof other -> well_formed keyof base ->
    truthy (ltext base) = false ->
    find_key k (lkids this) = Some t -> find_key k (lkids other) = Some o -> find_key k (lkids base) = None ->
    lch o <> lch t -> truthy (ltext t) = true -> lalts o = None ->
    stands dd (Some d) t gt -> stands dd (Some d) o go -> stands dd None o go' ->
    merge3_ this (Some other) (Some base) = Ok (r, changed) ->
    exists e, find_key k (lkids r) = Some e /\ (gt < go -> e = t) /\ (go <= gt -> with_content_of t o go' e).
  Proof.
    intros this other base r changed k t o gt go go' D Wt Wo Wb Hb Et Eo Eb Hot Ht Ha St So So' E.
    destruct (level_ok dd uid winner_other keyof d _ _ _ _ _ Wt Wo Wb Hb E) as (rs & rn & E1 & E2 & E3).
    pose proof (level_kids dd uid (Some d) true winner_other keyof (lkids this) (lkids other) (lkids base) rs rn
                  (proj1 (good_kids _ _ (wf_good _ _ Wt))) (proj1 (good_kids _ _ (wf_good _ _ Wo))) E1 E2 k) as LK.
    rewrite Et in LK. destruct LK as (s & Es & Ek). rewrite E3, Ek.
    pose proof (proj2 (proj2 Wt)) as NA.
    apply find_key_in in Et as [It <-]. apply (fun H => ew_kid _ _ _ H It) in NA. apply ew_here in NA. cbn beta in NA.
    unfold child_of, base_for, child_step in Es. rewrite Eo, Eb in Es.
    destruct (Z.eqb_spec (lch o) (lch t)) as [|Ne]; [contradiction|]. cbn [negb andb] in Es.
    unfold merge_with_alts in Es. destruct (Z.eqb_spec (lch o) (lch t)) as [|_]; [contradiction|]. rewrite Ht in Es. cbn [negb andb] in Es.
    apply (stands_spec _ _ _ _ D) in St, So. unfold draft_of in St, So. unfold draft3 in Es. rewrite St, So in Es. cbn [bind] in Es.
    destruct (Nat.ltb_spec gt go).
    - cbn [bind] in Es. rewrite no_alts in Es by exact Ha. cbn [bind fst snd] in Es. injection Es as <-.
      exists t. split; [reflexivity|]. split; [reflexivity|lia].
    - destruct (take_content dd t o) as [e|] eqn:Ec; cbn [bind] in Es; [|discriminate]. rewrite no_alts in Es by exact Ha.
      cbn [bind fst snd] in Es. injection Es as <-. exists e. split; [reflexivity|]. split; [lia|]. intros _.
      eapply take_content_spec; eauto.
  Qed.

  (** An element that this document changed and the other did not, or removed: the change is lost if the draft of the base is
      better than that of the change, and otherwise it stays. *)
  Theorem C37_own_change : forall this other base r changed k t o b gt gb,
    In dd alldrafts ->
    well_formed keyof this -> well_formed keyof other -> well_formed keyof base ->
    truthy (ltext base) = false ->
    find_key k (lkids this) = Some t -> find_key k (lkids other) = o -> find_key k (lkids base) = Some b ->
    match o with Some o => lch o = lch b /\ lalts o = None | None => winner_other = false end ->
    lch b <> lch t -> truthy (ltext b) = true ->
    stands dd (Some d) t gt -> stands dd None b gb ->
    merge3_ this (Some other) (Some base) = Ok (r, changed) ->
    exists e, find_key k (lkids r) = Some e /\ (gt <= gb -> e = t) /\ (gb < gt -> with_content_of t b gb e).
  Proof.
    intros this other base r changed k t o b gt gb D Wt Wo Wb Hb Et Eo Eb Ho Hbt Ht St Sb E.
    destruct (level_ok dd uid winner_other keyof d _ _ _ _ _ Wt Wo Wb Hb E) as (rs & rn & E1 & E2 & E3).
    pose proof (level_kids dd uid (Some d) true winner_other keyof (lkids this) (lkids other) (lkids base) rs rn
                  (proj1 (good_kids _ _ (wf_good _ _ Wt))) (proj1 (good_kids _ _ (wf_good _ _ Wo))) E1 E2 k) as LK.
    rewrite Et in LK. destruct LK as (s & Es & Ek). rewrite E3, Ek.
    pose proof (proj2 (proj2 Wt)) as NA.
    apply find_key_in in Et as [It <-]. apply (fun H => ew_kid _ _ _ H It) in NA. apply ew_here in NA. cbn beta in NA.
    assert (exists r, merge_with_alts dd uid (Some d) (Some b) o t = Ok r /\ s = ([fst r], [], snd r)) as ([e c] & Em & ->).
    { unfold child_of in Es. rewrite Eo, Eb in Es. unfold child_step, base_for in Es. destruct o as [o|].
      - destruct Ho as [Hc Ha]. rewrite Hc in Es. destruct (Z.eqb_spec (lch b) (lch t)) as [|_]; [contradiction|]. cbn [negb] in Es.
        destruct (Z.eqb_spec (lch b) (lch t)) as [|_]; [contradiction|]. rewrite ?Hc, Z.eqb_refl in Es. cbn [negb] in Es.
        destruct (merge_with_alts _ _ _ _ _ _) as [r0|] eqn:Em; cbn [bind] in Es; [|discriminate]. injection Es as <-. eauto.
      - rewrite Ho in Es. destruct (Z.eqb_spec (lch b) (lch t)) as [|_]; [contradiction|]. cbn [orb] in Es.
        destruct (merge_with_alts _ _ _ _ _ _) as [r0|] eqn:Em; cbn [bind] in Es; [|discriminate]. injection Es as <-. eauto. }
    assert (forall x, merge_alts dd (Some d) x o t = Ok (t, false)) as NO.
    { intro x. apply no_alts. destruct o; [apply Ho|exact I]. }
    assert (forall x y, merge_alts dd (Some d) x o y = Ok (y, false)) as NO2.
    { intros x y. apply no_alts. destruct o; [apply Ho|exact I]. }
    unfold merge_with_alts in Em. destruct (Z.eqb_spec (lch b) (lch t)) as [|_]; [contradiction|]. rewrite Ht in Em. cbn [negb andb] in Em.
    pose proof Sb as Sb'. apply (stands_spec _ _ _ _ D) in St, Sb. unfold draft_of in St, Sb. unfold draft3 in Em. rewrite St, Sb in Em. cbn [bind] in Em.
    cbn [fst snd placed]. destruct (Nat.ltb_spec gb gt).
    - destruct (add_alt dd uid (Some d) b t) as [b'|] eqn:Ea; cbn [bind] in Em; [|discriminate].
      destruct (add_alt_content _ _ _ Ea) as (A & B & C).
      destruct (take_content dd t b') as [e'|] eqn:Ec; cbn [bind] in Em; [|discriminate]. rewrite NO2 in Em. cbn [bind fst snd] in Em. injection Em as <- _.
      exists e'. split; [reflexivity|]. split; [lia|]. intros _.
      assert (stands dd None b' gb) as S' by (unfold stands in *; now rewrite C).
      destruct (take_content_spec t b' e' gb NA D S' Ec) as [w1 w2 w3 w4 w5 w6 w7]. split; try assumption; congruence.
    - cbn [bind] in Em. rewrite NO in Em. cbn [bind fst snd] in Em. injection Em as <- _. exists t. split; [reflexivity|]. split; [reflexivity|lia].
  Qed.
End S.

Example C37_both_new_ex :
  let t := LNode (lit "quotationStart") [(lit "draft", lit "provisional"); (lit "alt", lit "q")] (Some (lit "A")) 2 201 None [] in
  let o := LNode (lit "quotationStart") [(lit "draft", lit "contributed")] (Some (lit "B")) 2 202 None [] in
  well_formed per_hundred (ex_one t) /\ well_formed per_hundred (ex_one o) /\
  stands (lit "unconfirmed") (Some (lit "proposed")) t 2 /\ stands (lit "unconfirmed") (Some (lit "proposed")) o 1 /\
  merge3 (lit "unconfirmed") None true false (Some (lit "proposed")) (ex_one t) (Some (ex_one o)) (Some (branch "ldml" 0 8 []))
  = Ok (ex_one (LNode (lit "quotationStart") [(lit "draft", lit "contributed")] (Some (lit "B")) 2 202 None []), false).
Proof.
  cbv zeta. split; [apply well_formedb_ok; vm_compute; reflexivity|]. split; [apply well_formedb_ok; vm_compute; reflexivity|].
  split; [left; reflexivity|]. split; [left; reflexivity|]. vm_compute. reflexivity.
Qed.
Example C37_own_change_ex :
  let t := LNode (lit "quotationStart") [(lit "draft", lit "provisional")] (Some (lit "A")) 2 201 None [] in
  let b := LNode (lit "quotationStart") [(lit "draft", lit "contributed")] (Some (lit "B")) 2 202 None [] in
  merge3 (lit "unconfirmed") None true false (Some (lit "proposed")) (ex_one t) (Some (ex_one b)) (Some (ex_one b))
  = Ok (ex_one (LNode (lit "quotationStart") [(lit "draft", lit "contributed")] (Some (lit "B")) 2 202 None []), true).
Proof. vm_compute. reflexivity. Qed.
