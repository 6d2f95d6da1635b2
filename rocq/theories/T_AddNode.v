(** C52: adding an element to a document that keeps drafts. *)
From Coq Require Import String.
From Verif Require Import Py PyFacts M_LdmlBase M_Serialize M_Normalise M_Drafts T_Drafts T_Promote.
Local Open Scope list_scope.
Local Open Scope nat_scope.

(** * Specification *)

(** the attributes asked for: keyword arguments go first, empty values of the dictionary count
    as absent, and the draft set for the whole document stands in for a missing draft *)
Definition asked (ud : option pystr) (attrib keywords : list (pystr * pystr)) (k : pystr) : option pystr :=
  match dget streq keywords k with
  | Some v => Some v
  | None => match dget streq attrib k with
            | Some (c :: v) => Some (c :: v)
            | _ => if streq k (lit "draft") then ud else None
            end
  end.
(** how good an element is: the place of its draft in the list of drafts, 5 for an unknown one;
    without a draft it counts as [default], or else as the draft of the document *)
Definition stands (dd : pystr) (default : option pystr) (x : lnode) (g : nat) : Prop :=
  match lget x (lit "draft"), default with
  | Some d, _ => nth_error alldrafts g = Some d \/ (~ In d alldrafts /\ g = 5)
  | None, Some d => nth_error alldrafts g = Some d \/ (~ In d alldrafts /\ nth_error alldrafts g = Some dd)
  | None, None => nth_error alldrafts g = Some dd
  end.
(** no alternate is better than the element itself *)
Definition best_first (dd : pystr) (default : option pystr) (c : lnode) : Prop :=
  forall x g h, In x (map snd (alts_of c)) -> stands dd default c g -> stands dd default x h -> g <= h.

(** [target'] is [target] with [e] added under the name [name], and [w] says where the element
    that was asked for is now *)
Record grown (dd : pystr) (default : option pystr) (name : pystr) (e target target' : lnode) (w : where_to)
  : Prop := {
  g_kept : forall x, In x (family target) ->
    In (content x) (map content (family target')) \/
    (dget streq (alts_of target) name = Some x /\
     forall g h, stands dd default e g -> stands dd default x h -> g <= h);
  g_only : forall y, In y (family target') ->
    content y = content e \/ In (content y) (map content (family target));
  g_new : (exists k, match w with
                     | Primary => target' = k
                     | Alternate n => n = name /\ dget streq (alts_of target') n = Some k
                     end /\
                     (content k = content e \/
                      (dget streq (alts_of target) name = Some k /\
                       exists g h, stands dd default e g /\ stands dd default k h /\ h < g)));
  g_primary : forall g h, stands dd default e g -> stands dd default target h ->
    content target' = if g <? h then content e else content target;
  g_best : best_first dd default target';
  g_filed : well_filed target'
}.

(** * Proof *)
Lemma stands_spec dd default x g : In dd alldrafts ->
  stands dd default x g <-> draft_of dd x default = Ok g.
Proof.
  intro D. unfold stands, draft_of, get_draft.
  assert (forall d k, nth_error alldrafts k = Some d <-> dget streq draftratings d = Some k) as R.
  { intros d k. split; intro H; [|now apply rating_get].
    destruct (dget streq draftratings d) as [j|] eqn:E.
    - f_equal. apply rating_get in E. pose proof alldrafts_NoDup as ND. rewrite NoDup_nth_error in ND.
      apply ND; [apply nth_error_Some|]; congruence.
    - apply enum_from_none in E. apply nth_error_In in H. contradiction. }
  destruct (dget streq draftratings dd) as [n|] eqn:En; [|apply enum_from_none in En; contradiction].
  assert (forall d z, rating (Some d) z = g <->
            (nth_error alldrafts g = Some d \/ (~ In d alldrafts /\ g = z))) as Q.
  { intros d z. unfold rating. destruct (dget streq draftratings d) as [k|] eqn:Ek.
    - split; [intros <-; left; now apply R|].
      intros [H|[H _]]; [apply R in H; congruence|].
      exfalso. apply R in Ek. apply nth_error_In in Ek. contradiction.
    - split; [intros <-; right; split; [eapply enum_from_none; eassumption|reflexivity]|].
      intros [H|[_ ->]]; [apply R in H; congruence|reflexivity]. }
  destruct (lget x (lit "draft")) as [d|].
  - rewrite <- Q. split; [intros ->; reflexivity|intro E; now injection E].
  - destruct default as [d|].
    + rewrite R, R, En. pose proof (Q d n) as Q'. rewrite R in Q'. split.
      * intro H. f_equal. apply Q'. destruct H as [H|[H1 H2]]; [now left|right; split; congruence].
      * intro H. injection H as H. apply Q' in H. destruct H as [H|[H1 H2]]; [now left|right; split; congruence].
    + cbn. rewrite R, En. split; congruence.
Qed.
Lemma draft_of_total dd default x : In dd alldrafts -> exists g, draft_of dd x default = Ok g.
Proof.
  intro D. unfold draft_of, get_draft. destruct (lget x (lit "draft")); [eauto|].
  destruct (dget streq draftratings dd) eqn:E; [eauto|]. apply enum_from_none in E. contradiction.
Qed.
Lemma draft_of_same dd default x y : lget x (lit "draft") = lget y (lit "draft") ->
  draft_of dd x default = draft_of dd y default.
Proof. unfold draft_of. now intros ->. Qed.

Lemma fold_dset_get {V} (kw d : list (pystr * V)) k : NoDup (dkeys kw) ->
  dget streq (fold_left (fun d (kv : pystr * V) => dset streq d (fst kv) (snd kv)) kw d) k
  = match dget streq kw k with Some v => Some v | None => dget streq d k end.
Proof.
  revert d. induction kw as [|[k' v] kw IH]; intros d ND; cbn [fold_left dget fst snd]; [reflexivity|].
  cbn [dkeys map fst] in ND. inversion ND as [|? ? N1 N2]; subst. rewrite IH by assumption.
  destruct (streq_spec k k') as [->|N].
  - destruct (dget streq kw k') eqn:E.
    + exfalso. apply N1. apply (dget_Some_iff _ streq_spec). eauto.
    + apply (dget_dset_same _ streq_spec).
  - destruct (dget streq kw k); [reflexivity|]. now apply (dget_dset_other _ streq_spec).
Qed.
Lemma filter_nonempty_get (d : list (pystr * pystr)) k : NoDup (dkeys d) ->
  dget streq (filter (fun kv : pystr * pystr => match snd kv with [] => false | _ => true end) d) k
  = match dget streq d k with Some (c :: v) => Some (c :: v) | _ => None end.
Proof.
  induction d as [|[k' v] d IH]; intro ND; cbn [filter dget snd]; [reflexivity|].
  cbn [dkeys map fst] in ND. inversion ND as [|? ? N1 N2]; subst.
  destruct (streq_spec k k') as [->|N].
  - destruct v as [|c v].
    + rewrite IH by assumption. destruct (dget streq d k') eqn:E; [|reflexivity].
      exfalso. apply N1. apply (dget_Some_iff _ streq_spec). eauto.
    + cbn [dget]. now rewrite streq_refl.
  - destruct v as [|c v]; [now apply IH|]. cbn [dget]. destruct (streq_spec k k'); [contradiction|]. now apply IH.
Qed.

Lemma index_where_spec {X} (p : X -> bool) l :
  match index_where p l with
  | Some i => exists x, nth_error l i = Some x /\ p x = true /\
                        forall j y, j < i -> nth_error l j = Some y -> p y = false
  | None => forall x, In x l -> p x = false
  end.
Proof.
  induction l as [|x l IH]; cbn [index_where]; [intros ? []|]. destruct (p x) eqn:E.
  - exists x. repeat split; [assumption|]. intros j y H. lia.
  - destruct (index_where p l) as [i|].
    + destruct IH as (y & H1 & H2 & H3). exists y. repeat split; try assumption.
      intros [|j] z L Hz; [cbn in Hz; congruence|]. apply (H3 j z); [lia|assumption].
    + intros y [<-|H]; auto.
Qed.

Lemma content_set_alts c a : content (set_alts c a) = content c.
Proof. destruct c. reflexivity. Qed.
Lemma lget_set_alts c a k : lget (set_alts c a) k = lget c k.
Proof. destruct c. reflexivity. Qed.
Lemma alts_set_alts c a : alts_of (set_alts c (Some a)) = a.
Proof. destruct c. reflexivity. Qed.

Lemma in_dset (d : list (pystr * lnode)) k v k' x : NoDup (dkeys d) ->
  In (k', x) (dset streq d k v) <-> (k' = k /\ x = v) \/ (k' <> k /\ In (k', x) d).
Proof.
  intro ND. split.
  - intro H. assert (dget streq (dset streq d k v) k' = Some x) as G.
    { apply (dget_NoDup_In _ streq_spec); [|assumption].
      now apply (dset_NoDup _ streq_spec). }
    destruct (streq_spec k' k) as [->|N].
    + rewrite (dget_dset_same _ streq_spec) in G. left. split; congruence.
    + rewrite (dget_dset_other _ streq_spec) in G by assumption. right. split; [assumption|].
      now apply (dget_In _ streq_spec).
  - intros [[-> ->]|[N H]]; apply (dget_In _ streq_spec).
    + apply (dget_dset_same _ streq_spec).
    + rewrite (dget_dset_other _ streq_spec) by assumption. now apply (dget_NoDup_In _ streq_spec).
Qed.

Section Add.
  Variable hasher : pystr -> Z.
  Variable m : meta.
  Variable dd : pystr.
  Variable ud uid : option pystr.
  Variable ns : list (pystr * pystr).

  Lemma in_map_content x l : In x l -> In (content x) (map content l).
  Proof. apply in_map. Qed.

  Lemma add_alt_leaf_spec target e default name :
    In dd alldrafts -> well_filed target -> best_first dd default target ->
    lget e (lit "alt") = Some name ->
    exists target' w, add_alt_leaf dd target e default name = Ok (target', w) /\
      grown dd default name e target target' w.
  Proof.
    intros D [ND WF] B He. unfold add_alt_leaf.
    destruct (draft_of_total dd default e D) as [od Eo]. destruct (draft_of_total dd default target D) as [td Et].
    rewrite Eo, Et. cbn [bind].
    assert (forall x g, stands dd default x g <-> draft_of dd x default = Ok g) as Sp
      by (intros; now apply stands_spec).
    assert (forall x k, In (k, x) (alts_of target) -> In x (map snd (alts_of target))) as Ins
      by (intros x k H; apply (in_map snd) in H; exact H).
    destruct (Nat.ltb_spec od td) as [L|L].
    - (* promotion *)
      destruct (promote_spec target e name name He) as (P1 & P2 & old' & P3 & P4 & P5 & P6).
      set (r := promote target e name) in *.
      exists r, Primary. split; [reflexivity|].
      assert (alts_of r = dset streq (ddel streq (alts_of target) name) name old') as Ar
        by (unfold alts_of at 1; now rewrite P6).
      assert (NoDup (dkeys (ddel streq (alts_of target) name))) as NDd by now apply ddel_NoDup.
      assert (forall k x, In (k, x) (alts_of r) <->
                (k = name /\ x = old') \/ (k <> name /\ In (k, x) (alts_of target))) as Ir.
      { intros k x. rewrite Ar, in_dset by assumption. split; (intros [H|[N H]]; [now left|right; split; [assumption|]]).
        - apply (dget_NoDup_In _ streq_spec) in H; [|assumption]. rewrite dget_ddel_other in H by assumption.
          now apply (dget_In _ streq_spec).
        - apply (dget_In _ streq_spec). rewrite dget_ddel_other by assumption.
          now apply (dget_NoDup_In _ streq_spec). }
      constructor.
      + intros x [<-|H].
        * left. right. apply in_map_iff. exists old'. split; [assumption|].
          apply in_map_iff. exists (name, old'). split; [reflexivity|]. apply Ir. now left.
        * apply in_map_iff in H as ((k & y) & <- & H). cbn [snd].
          destruct (streq_spec k name) as [->|N].
          -- right. split; [now apply (dget_NoDup_In _ streq_spec)|].
             intros g h Hg Hh. apply Sp in Hg. rewrite Eo in Hg. injection Hg as <-.
             assert (td <= h); [|lia].
             apply (B y td h); [now apply (Ins _ name)|now apply Sp|assumption].
          -- left. right. apply in_map. apply in_map_iff. exists (k, y). split; [reflexivity|]. apply Ir. now right.
      + intros y [<-|H]; [now left|]. right. apply in_map_iff in H as ((k & x) & <- & H). cbn [snd].
        apply Ir in H as [[_ ->]|[_ H]]; [left; congruence|]. right. apply in_map. eapply Ins; eassumption.
      + exists r. split; [reflexivity|]. now left.
      + intros g h Hg Hh. apply Sp in Hg, Hh. rewrite Eo in Hg. rewrite Et in Hh. injection Hg as <-. injection Hh as <-.
        destruct (Nat.ltb_spec od td); [assumption|lia].
      + intros x g h Hx Hg Hh. apply Sp in Hg, Hh.
        rewrite (draft_of_same _ _ _ e) in Hg by assumption. rewrite Eo in Hg. injection Hg as <-.
        apply in_map_iff in Hx as ((k & y) & <- & H). cbn [snd] in Hh. apply Ir in H as [[_ ->]|[_ H]].
        * rewrite (draft_of_same _ _ _ target) in Hh by assumption. rewrite Et in Hh. injection Hh as <-. lia.
        * assert (td <= h); [|lia]. apply (B y td h); [eapply Ins; eassumption|now apply Sp|now apply Sp].
      + split; [rewrite Ar; now apply (dset_NoDup _ streq_spec)|].
        intros k x H. apply Ir in H as [[-> ->]|[_ H]]; [assumption|now apply WF].
    - (* filed as an alternate *)
      assert (forall t', content t' = content target -> forall g h, stands dd default e g -> stands dd default target h ->
                content t' = if g <? h then content e else content target) as Pr.
      { intros t' Ht g h Hg Hh. apply Sp in Hg, Hh. rewrite Eo in Hg. rewrite Et in Hh. injection Hg as <-. injection Hh as <-.
        destruct (Nat.ltb_spec od td); [lia|assumption]. }
      assert (forall t', t' = set_alts target (Some (dset streq (alts_of target) name e)) ->
              (forall x g h, dget streq (alts_of target) name = Some x ->
                stands dd default e g -> stands dd default x h -> g <= h) ->
              grown dd default name e target t' (Alternate name)) as Filed.
      { intros t' -> Hv. set (t' := set_alts _ _).
        assert (alts_of t' = dset streq (alts_of target) name e) as Ar by apply alts_set_alts.
        assert (forall k x, In (k, x) (alts_of t') <->
                (k = name /\ x = e) \/ (k <> name /\ In (k, x) (alts_of target))) as Ir
          by (intros; rewrite Ar; now apply in_dset).
        constructor.
        - intros x [<-|H]; [left; left; apply content_set_alts|].
          apply in_map_iff in H as ((k & y) & <- & H). cbn [snd]. destruct (streq_spec k name) as [->|N].
          + apply (dget_NoDup_In _ streq_spec) in H; [|assumption]. right. split; [assumption|].
            intros g h. now apply Hv.
          + left. right. apply in_map. apply in_map_iff. exists (k, y). split; [reflexivity|]. apply Ir. now right.
        - intros y [<-|H]; [right; left; symmetry; apply content_set_alts|].
          apply in_map_iff in H as ((k & x) & <- & H). cbn [snd]. apply Ir in H as [[_ ->]|[_ H]]; [now left|].
          right. right. apply in_map. eapply Ins; eassumption.
        - exists e. split; [split; [reflexivity|rewrite Ar; apply (dget_dset_same _ streq_spec)]|now left].
        - apply Pr, content_set_alts.
        - intros x g h Hx Hg Hh. apply Sp in Hg. rewrite (draft_of_same _ _ _ target) in Hg by apply lget_set_alts.
          rewrite Et in Hg. injection Hg as <-.
          apply in_map_iff in Hx as ((k & y) & <- & H). cbn [snd] in Hh. apply Ir in H as [[_ ->]|[_ H]].
          + apply Sp in Hh. rewrite Eo in Hh. injection Hh as <-. assumption.
          + apply (B y td h); [eapply Ins; eassumption|now apply Sp|assumption].
        - split; [rewrite Ar; now apply (dset_NoDup _ streq_spec)|].
          intros k x H. apply Ir in H as [[-> ->]|[_ H]]; [assumption|now apply WF]. }
      unfold alts_of in Filed. destruct (lalts target) as [alts|] eqn:Ea.
      + destruct (dget streq alts name) as [v|] eqn:Ev.
        * destruct (draft_of_total dd default v D) as [vd Ed]. rewrite Ed. cbn [bind].
          destruct (Nat.ltb_spec vd od) as [L2|L2].
          -- exists target, (Alternate name). split; [reflexivity|]. constructor.
             ++ intros x Hx. left. now apply in_map.
             ++ intros y Hy. right. now apply in_map.
             ++ exists v. assert (dget streq (alts_of target) name = Some v) as Ev' by (unfold alts_of; now rewrite Ea).
                split; [split; [reflexivity|assumption]|]. right. split; [assumption|].
                exists od, vd. split; [now apply Sp|]. split; [now apply Sp|assumption].
             ++ now apply Pr.
             ++ assumption.
             ++ now split.
          -- eexists _, _. split; [reflexivity|]. apply Filed; [reflexivity|].
             intros x g h Hx Hg Hh. injection Hx as <-. apply Sp in Hg, Hh. rewrite Eo in Hg. rewrite Ed in Hh.
             injection Hg as <-. injection Hh as <-. assumption.
        * eexists _, _. split; [reflexivity|]. apply Filed; [reflexivity|]. intros x g h Hx. discriminate.
      + eexists _, _. split; [reflexivity|]. apply Filed; [reflexivity|]. intros x g h Hx. discriminate.
  Qed.

  (** ** C52 *)
  Theorem C52_addnode : forall parent tag attrib keywords alt,
    In dd alldrafts ->
    NoDup (dkeys attrib) -> NoDup (dkeys keywords) -> asked ud attrib keywords (lit "alt") = None ->
    let default := asked ud attrib keywords (lit "draft") in
    let name := alt_name uid alt in
    (forall c, In c (lkids parent) -> well_filed c /\ best_first dd default c) ->
    exists parent' i w e,
      addnode hasher m dd true ud uid ns parent tag attrib keywords alt = Ok (parent', (i, w)) /\
      (* the element asked for *)
      ltag e = reverse_localns ns tag /\ ltext e = None /\ lkids e = [] /\
      (forall k, k <> lit "alt" -> lget e k = asked ud attrib keywords k) /\
      ( (* nothing has its key: it goes to the end *)
        ((forall c, In c (lkids parent) -> lah c <> lah e) /\ w = Primary /\ i = List.length (lkids parent) /\
         parent' = set_kids parent (lkids parent ++ [e]))
        \/ (* else it joins the first that has *)
        exists target target',
          nth_error (lkids parent) i = Some target /\ lah target = lah e /\
          (forall j c, j < i -> nth_error (lkids parent) j = Some c -> lah c <> lah e) /\
          parent' = set_kids parent (replace_nth i target' (lkids parent)) /\
          grown dd default name e target target' w ).
  Proof.
    intros parent tag attrib keywords alt D N1 N2 Na default name Hc.
    unfold addnode. set (name' := alt_name uid alt).
    set (a0 := fold_left _ keywords _).
    set (a := if dmem streq a0 (lit "draft") then a0 else match ud with Some d => dset streq a0 (lit "draft") d | None => a0 end).
    assert (forall k, dget streq a k = asked ud attrib keywords k) as Ga.
    { intro k. assert (dget streq a0 k = match dget streq keywords k with Some v => Some v | None =>
        match dget streq attrib k with Some (c :: v) => Some (c :: v) | _ => None end end) as G0.
      { subst a0. rewrite fold_dset_get by assumption. now rewrite filter_nonempty_get. }
      subst a. unfold dmem, asked.
      destruct (streq_spec k (lit "draft")) as [->|Nk].
      - destruct (dget streq a0 (lit "draft")) as [d|] eqn:E.
        + rewrite E. destruct (dget streq keywords (lit "draft")); [assumption|].
          destruct (dget streq attrib (lit "draft")) as [[|c v]|]; congruence.
        + destruct (dget streq keywords (lit "draft")); [discriminate|].
          destruct ud as [d|].
          * rewrite (dget_dset_same _ streq_spec).
            destruct (dget streq attrib (lit "draft")) as [[|c v]|]; [reflexivity|discriminate|reflexivity].
          * rewrite E. destruct (dget streq attrib (lit "draft")) as [[|c v]|]; [reflexivity|discriminate|reflexivity].
      - assert (dget streq (if match dget streq a0 (lit "draft") with Some _ => true | None => false end then a0
                            else match ud with Some d => dset streq a0 (lit "draft") d | None => a0 end) k
                = dget streq a0 k) as ->.
        { destruct (dget streq a0 (lit "draft")); [reflexivity|]. destruct ud; [|reflexivity].
          now apply (dget_dset_other _ streq_spec). }
        exact G0. }
    clearbody a. destruct (calc_hashes hasher m true (reverse_localns ns tag) a None []) as [ah ch].
    pose proof (index_where_spec (fun x => Z.eqb (lah x) ah) (lkids parent)) as I.
    destruct (index_where _ (lkids parent)) as [i|].
    - destruct I as (target & Hi & Hh & Hf). rewrite Hi.
      assert (dmem streq a (lit "alt") = false) as ->.
      { unfold dmem. now rewrite Ga, Na. }
      set (e := LNode _ (dset streq a (lit "alt") name') None ah ch None []).
      destruct (Hc target) as [WF B]; [eapply nth_error_In; eassumption|].
      assert (dget streq (dset streq a (lit "alt") name') (lit "draft") = default) as ->.
      { rewrite (dget_dset_other _ streq_spec); [apply Ga|]. intro H. apply streq_true in H. vm_compute in H. discriminate. }
      destruct (add_alt_leaf_spec target e default name' D WF B) as (target' & w & E & G).
      { unfold lget. cbn [lattrs e]. apply (dget_dset_same _ streq_spec). }
      rewrite E. cbn [bind fst snd]. eexists _, _, _, e. split; [reflexivity|].
      split; [reflexivity|]. split; [reflexivity|]. split; [reflexivity|]. split.
      + intros k Nk. unfold lget. cbn [lattrs e]. rewrite (dget_dset_other _ streq_spec) by assumption. apply Ga.
      + right. exists target, target'. split; [assumption|]. split; [now apply Z.eqb_eq|]. split; [|split; [reflexivity|exact G]].
        intros j c L Hj. apply Z.eqb_neq. now apply (Hf j c).
    - exists (set_kids parent (lkids parent ++ [LNode (reverse_localns ns tag) a None ah ch None []])),
        (List.length (lkids parent)), Primary, (LNode (reverse_localns ns tag) a None ah ch None []).
      split; [reflexivity|]. split; [reflexivity|]. split; [reflexivity|]. split; [reflexivity|]. split.
      + intros k _. unfold lget. cbn [lattrs]. apply Ga.
      + left. split; [|auto]. intros c Hin. apply Z.eqb_neq. now apply I.
  Qed.
End Add.

(** ** Cases *)
Definition ex_months : lnode :=
  LNode (lit "months") [] None 0%Z 0%Z None
    [ mk "day" "approved" "" "Mon" 7;
      set_alts (mk "month" "contributed" "" "Jan" 1)
        (Some [(lit "proposed", mk "month" "provisional" "proposed" "jan." 1)]) ].
Example C52_example :
  (forall c, In c (lkids ex_months) -> well_filed c /\ best_first (lit "unconfirmed") (Some (lit "approved")) c) /\
  (* the new month is approved: it becomes the primary and the provisional one is lost *)
  exists p w, addnode (fun _ => 1%Z) no_meta (lit "unconfirmed") true None None [] ex_months (lit "month")
                [(lit "draft", lit "approved")] [] None = Ok (p, (1, w)) /\ w = Primary /\
    map (fun c => map ltext (family c)) (lkids p) = [[Some (lit "Mon")]; [None; Some (lit "Jan")]].
Proof.
  split.
  - intros c Hc. cbn [ex_months lkids In] in Hc. destruct Hc as [<-|[<-|[]]]; (split; [split|]).
    + constructor.
    + intros k x [].
    + intros x g h [].
    + cbn [alts_of mk set_alts lalts dkeys map fst]. constructor; [intros []|constructor].
    + intros k x H. cbn [alts_of mk set_alts lalts In] in H. destruct H as [H|[]]. injection H as <- <-.
      vm_compute. reflexivity.
    + intros x g h H Hg Hh.
      assert (In (lit "unconfirmed") alldrafts) as D
        by (unfold alldrafts; cbn [In]; repeat (try (left; reflexivity); right)).
      apply (stands_spec _ _ _ _ D) in Hg. apply (stands_spec _ _ _ _ D) in Hh.
      cbn [alts_of mk set_alts lalts map snd In] in H. destruct H as [<-|[]].
      vm_compute in Hg, Hh. injection Hg as <-. injection Hh as <-. lia.
  - eexists _, _. split; [vm_compute; reflexivity|]. split; vm_compute; reflexivity.
Qed.
