(** C72: the font rules (scripts/fontrules) and their use (scripts/fontmatch). *)
From Coq Require Import String.
From Verif Require Import Py PyFacts M_FontRules.
Local Open Scope list_scope.
Local Open Scope nat_scope.

(** ** Specification *)
(** A language: its subtags by name; "" is none. *)
Notation lang := (pystr -> option pystr).
(** the font that the decision tree gives a language *)
Definition holds (tag : lang) (x : feat) : Prop := match tag (fst x) with Some s => s = snd x | None => snd x = [] end.
Inductive tree_font (tag : lang) : dtree -> pystr -> Prop :=
| tf_leaf v : tree_font tag (Leaf v) v
| tf_left f l r v : ~ holds tag f -> tree_font tag l v -> tree_font tag (Node f l r) v
| tf_right f l r v : holds tag f -> tree_font tag r v -> tree_font tag (Node f l r) v.
(** a leaf with its font and the features that are asked to hold on the way to it *)
Inductive path : dtree -> pystr -> list feat -> Prop :=
| p_leaf v : path (Leaf v) v []
| p_left f l r v a : path l v a -> path (Node f l r) v a
| p_right f l r v a : path r v a -> path (Node f l r) v (f :: a).
(** the language has the subtags that are asked for *)
Definition has (tag : lang) (x : feat) : Prop := tag (fst x) = Some (snd x).
Definition has_asked (tag : lang) (a : list feat) : Prop := forall x, In x a -> snd x <> [] -> has tag x.
(** a rule accepts a language *)
Definition accepts (m : rule) (tag : lang) : Prop := forall i l, In (i, l) m -> exists x, tag i = Some x /\ In x l.
(** no leaf asks for two values of the same subtag *)
Definition sane (t : dtree) : Prop := forall v a, path t v a -> NoDup (map fst (filter (fun x => negb (streq (snd x) [])) a)).

(** ** The leaves of the tree *)
Lemma treerules_path t : forall fs v s, In (v, s) (treerules t fs) <-> exists a, path t v a /\ s = fs ++ a.
Proof.
  induction t as [w|f l IHl r IHr]; intros fs v s; cbn [treerules].
  - split.
    + intros [E|[]]. injection E as -> ->. exists []. split; [constructor | now rewrite app_nil_r].
    + intros (a & P & ->). inversion P; subst. rewrite app_nil_r. now left.
  - rewrite in_app_iff, IHl, IHr. split.
    + intros [(a & P & ->)|(a & P & ->)].
      * exists a. split; [now constructor | reflexivity].
      * exists (f :: a). split; [now constructor|]. now rewrite <- app_assoc.
    + intros (a & P & ->). inversion P; subst.
      * left. exists a. now split.
      * right. eexists. split; [eassumption|]. now rewrite <- app_assoc.
Qed.

(** ** Rules *)
Lemma accepts_dget (m : rule) tag : NoDup (dkeys m) ->
  accepts m tag <-> forall i l, dget streq m i = Some l -> exists x, tag i = Some x /\ In x l.
Proof.
  intros ND. unfold accepts. split; intros H i l Hi.
  - apply H. now apply (dget_In streq streq_spec).
  - apply H. now apply (dget_NoDup_In streq streq_spec).
Qed.
Lemma existsb_streq v l : existsb (streq v) l = true <-> In v l.
Proof.
  rewrite existsb_exists. split.
  - intros (x & Hx & E). apply streq_true in E. now subst.
  - intros H. exists v. split; [exact H | apply streq_refl].
Qed.

(** well formed rules: at most one name has more than one value *)
Record wf (k : rule) : Prop := mkWf {
  wf_keys : NoDup (dkeys k);
  wf_some : forall i l, dget streq k i = Some l -> l <> [];
  wf_vals : forall i l x, dget streq k i = Some l -> In x l -> x <> [];
  wf_one : forall i j l l', dget streq k i = Some l -> dget streq k j = Some l' -> 1 < length l -> 1 < length l' -> i = j }.

Lemma dset_fresh {V} (d : list (pystr * V)) k v : ~ In k (dkeys d) -> dset streq d k v = d ++ [(k, v)].
Proof.
  induction d as [|[k' v'] d IH]; intros H; [reflexivity|]. cbn [dset]. unfold dkeys in H. cbn [map fst] in H.
  destruct (streq_spec k k') as [->|_]; [exfalso; apply H; now left|].
  cbn [app]. rewrite IH; [reflexivity|]. intros X. apply H. now right.
Qed.
Lemma new_rule_map f : NoDup (map fst f) -> new_rule f = map (fun x => (fst x, [snd x])) f.
Proof.
  unfold new_rule.
  assert (G : forall f d, NoDup (dkeys d ++ map fst f) ->
    fold_left (fun (k : rule) (x : feat) => dset streq k (fst x) [snd x]) f d = d ++ map (fun x => (fst x, [snd x])) f).
  { clear. induction f as [|x f IH]; intros d ND; [now rewrite app_nil_r|]. cbn [fold_left map] in *.
    rewrite dset_fresh.
    - rewrite IH; [now rewrite <- app_assoc|]. unfold dkeys in *. rewrite map_app. cbn [map fst]. now rewrite <- app_assoc.
    - apply NoDup_remove_2 in ND. intros X. apply ND. apply in_or_app. now left. }
  intros ND. rewrite G; [reflexivity|exact ND].
Qed.
Lemma dget_map_single (f : list feat) i : dget streq (map (fun x => (fst x, [snd x])) f) i = option_map (fun v => [v]) (dget streq f i).
Proof.
  induction f as [|[k v] f IH]; [reflexivity|]. cbn [map fst snd dget]. destruct (streq i k); [reflexivity|exact IH].
Qed.
Definition nonempty (f : list feat) : Prop := forall x, In x f -> snd x <> [].
Lemma new_rule_wf f : NoDup (map fst f) -> nonempty f -> wf (new_rule f).
Proof.
  intros ND NE. rewrite new_rule_map by exact ND. constructor.
  - unfold dkeys. rewrite map_map. cbn [fst]. exact ND.
  - intros i l. rewrite dget_map_single. destruct (dget streq f i); intros E; [injection E as <-; discriminate | discriminate].
  - intros i l x. rewrite dget_map_single. destruct (dget streq f i) as [v|] eqn:E; intros H; [injection H as <- | discriminate].
    intros [<-|[]]. apply (dget_In streq streq_spec) in E. exact (NE _ E).
  - intros i j l l'. rewrite !dget_map_single. destruct (dget streq f i); intros E; [injection E as <- | discriminate].
    cbn [length]. lia.
Qed.
Lemma new_rule_accepts f tag : NoDup (map fst f) -> accepts (new_rule f) tag <-> forall x, In x f -> has tag x.
Proof.
  intros ND. rewrite new_rule_map by exact ND. unfold accepts, has. split.
  - intros H x Hx. destruct (H (fst x) [snd x]) as (y & A & [<-|[]]); [|exact A].
    apply in_map_iff. exists x. now split.
  - intros H i l Hi. apply in_map_iff in Hi. destruct Hi as (x & E & Hx). injection E as <- <-.
    exists (snd x). split; [apply H, Hx | now left].
Qed.

(** *** Merging *)
Definition addv (l : list pystr) (v : pystr) : list pystr := if (existsb (streq v) l || streq v [])%bool then l else l ++ [v].
Lemma merge_spec : forall f k, NoDup (map fst f) -> (forall x, In x f -> In (fst x) (dkeys k)) ->
  dkeys (merge_rule k f) = dkeys k /\
  forall i, dget streq (merge_rule k f) i =
    match dget streq k i with
    | None => None
    | Some l => Some (match dget streq f i with Some v => addv l v | None => l end)
    end.
Proof.
  unfold merge_rule. induction f as [|[i0 v0] f IH]; intros k ND HK.
  - split; [reflexivity|]. intros i. cbn [fold_left dget]. now destruct (dget streq k i).
  - cbn [map fst] in ND. inversion ND as [|? ? N1 N2]; subst. cbn [fold_left].
    assert (H0 : In i0 (dkeys k)) by (apply (HK (i0, v0)); now left).
    apply (dget_Some_iff streq streq_spec) in H0. destruct H0 as (l0 & E0).
    assert (K : dkeys (add_value k (i0, v0)) = dkeys k /\ forall i, dget streq (add_value k (i0, v0)) i =
       if streq i i0 then Some (addv l0 v0) else dget streq k i).
    { unfold add_value. cbn [fst snd]. rewrite E0. unfold addv. destruct (_ || _)%bool eqn:B.
      - split; [reflexivity|]. intros i. destruct (streq_spec i i0) as [->|_]; [exact E0|reflexivity].
      - split.
        + rewrite (dkeys_dset streq streq_spec). destruct (dmem streq k i0) eqn:M; [reflexivity|].
          unfold dmem in M. rewrite E0 in M. discriminate.
        + intros i. rewrite (dget_dset streq streq_spec). reflexivity. }
    destruct K as [K1 K2]. destruct (IH (add_value k (i0, v0)) N2) as [I1 I2].
    { intros x Hx. rewrite K1. apply HK. now right. }
    split; [congruence|]. intros i. rewrite I2, K2. cbn [dget]. destruct (streq_spec i i0) as [->|NE].
    + rewrite E0. assert (X : dget streq f i0 = None) by (apply (dget_None streq streq_spec); exact N1). now rewrite X.
    + reflexivity.
Qed.

Lemma multi_None k : multi k = None -> forall i l, dget streq k i = Some l -> length l <= 1.
Proof.
  induction k as [|[j lx] k IH]; intros H i l E; [discriminate|]. cbn [multi] in H. destruct (Nat.ltb_spec 1 (length lx)); [discriminate|].
  cbn [dget] in E. destruct (streq i j); [injection E as <-; lia | eapply IH; eassumption].
Qed.
Lemma multi_Some k m : NoDup (dkeys k) -> multi k = Some m -> exists l, dget streq k m = Some l /\ 1 < length l.
Proof.
  induction k as [|[j lx] k IH]; intros ND H; [discriminate|]. cbn [multi] in H. unfold dkeys in ND. cbn [map fst] in ND.
  inversion ND as [|? ? N1 N2]; subst. cbn [dget].
  destruct (Nat.ltb_spec 1 (length lx)).
  - injection H as ->. rewrite streq_refl. now exists lx.
  - destruct (IH N2 H) as (l & A & B). destruct (streq_spec m j) as [->|_]; [|now exists l].
    exfalso. apply N1. apply (dget_In streq streq_spec) in A. apply in_map_iff. exists (j, l). now split.
Qed.

Lemma score_spec k : forall f m sc s, score_loop k f m sc = Some s ->
  (forall i, m = Some i -> dget streq k i <> None) ->
  exists m', (m <> None -> m' = m) /\ forall x, In x f ->
    (m' = Some (fst x) /\ dget streq k (fst x) <> None) \/ (exists l, dget streq k (fst x) = Some (snd x :: l)).
Proof.
  induction f as [|[i vv] f IH]; intros m sc s H HM; cbn [score_loop] in H.
  - exists m. split; [auto|]. intros x [].
  - destruct (match m with Some m0 => streq i m0 | None => false end) eqn:EM.
    + destruct m as [m0|]; [|discriminate]. apply streq_true in EM. subst m0.
      destruct (IH _ _ _ H HM) as (m' & A & B). exists m'. split; [exact A|].
      intros x [<-|Hx]; [|auto]. left. split; [cbn [fst]; apply A; discriminate | apply HM; reflexivity].
    + destruct (dget streq k i) as [l|] eqn:E; [|discriminate].
      destruct (match l with [] => false | x :: _ => streq vv x end) eqn:EV.
      * destruct (IH _ _ _ H HM) as (m' & A & B). exists m'. split; [exact A|].
        intros x [<-|Hx]; [|auto]. right. cbn [fst snd]. destruct l as [|y l]; [discriminate|]. apply streq_true in EV. subst y. now exists l.
      * destruct m as [m0|]; [discriminate|].
        destruct (IH _ _ _ H) as (m' & A & B); [intros j Hj; injection Hj as <-; congruence|].
        exists m'. split; [congruence|]. intros x [<-|Hx]; [|auto]. left. cbn [fst]. split; [apply A; discriminate | congruence].
Qed.

Lemma rule_score_spec k f s : wf k -> NoDup (map fst f) -> rule_score k f = Some s ->
  length f = length k /\ (forall x, In x f -> In (fst x) (dkeys k)) /\ (forall i, In i (dkeys k) -> In i (map fst f)) /\
  exists m, forall x, In x f -> m = Some (fst x) \/ dget streq k (fst x) = Some [snd x].
Proof.
  intros W ND H. unfold rule_score in H. destruct (Nat.eqb_spec (length f) (length k)) as [EL|]; [|discriminate].
  destruct (score_loop k f (multi k) 0) as [s0|] eqn:ES; [|discriminate]. clear H.
  destruct (score_spec k f _ _ _ ES) as (m & A & B).
  { intros i Hi. destruct (multi_Some k i (wf_keys k W) Hi) as (l & E & _). congruence. }
  assert (HK : forall x, In x f -> In (fst x) (dkeys k)).
  { intros x Hx. apply (dget_Some_iff streq streq_spec). destruct (B x Hx) as [[_ X]|(l & X)]; [|eauto].
    destruct (dget streq k (fst x)); [eauto|congruence]. }
  split; [exact EL|]. split; [exact HK|]. split.
  - apply (NoDup_length_incl ND); [unfold dkeys; rewrite !map_length; lia|].
    intros i Hi. apply in_map_iff in Hi. destruct Hi as (x & <- & Hx). now apply HK.
  - exists m. intros x Hx. destruct (B x Hx) as [[X _]|(l & X)]; [now left|].
    destruct l as [|y l]; [now right|]. left.
    destruct (multi k) as [mm|] eqn:EM.
    + rewrite A by discriminate. f_equal. destruct (multi_Some k mm (wf_keys k W) EM) as (l' & E' & L').
      apply (wf_one k W _ _ _ _ E' X L'). cbn [length]. lia.
    + pose proof (multi_None k EM _ _ X) as L. cbn [length] in L. lia.
Qed.

Lemma merge_rule_ok k f s : wf k -> NoDup (map fst f) -> nonempty f -> rule_score k f = Some s ->
  wf (merge_rule k f) /\ (f <> [] -> merge_rule k f <> []) /\
  forall tag, accepts (merge_rule k f) tag <-> accepts k tag \/ (forall x, In x f -> has tag x).
Proof.
  intros W ND NE HS. destruct (rule_score_spec k f s W ND HS) as (EL & HK & HF & m & HM).
  destruct (merge_spec f k ND HK) as [MK MD].
  assert (FD : forall i v, dget streq f i = Some v -> In (i, v) f) by (intros i v; apply (dget_In streq streq_spec)).
  assert (KF : forall i l, dget streq k i = Some l -> exists v, dget streq f i = Some v).
  { intros i l E. assert (X : In i (dkeys k)) by (apply (dget_Some_iff streq streq_spec); eauto).
    apply HF in X. now apply (dget_Some_iff streq streq_spec) in X. }
  assert (AV : forall v l, v <> [] -> addv l v = l /\ In v l \/ addv l v = l ++ [v] /\ ~ In v l).
  { intros v l Hv. unfold addv. destruct (existsb (streq v) l) eqn:E; cbn [orb].
    - left. split; [reflexivity | now apply existsb_streq].
    - destruct (streq_spec v []) as [|_]; [congruence|]. right. split; [reflexivity|].
      intros X. apply existsb_streq in X. congruence. }
  assert (SG : forall i l v, dget streq k i = Some l -> dget streq f i = Some v -> m <> Some i -> l = [v]).
  { intros i l v E1 E2 NM. destruct (HM _ (FD _ _ E2)) as [X|X]; cbn [fst snd] in X; congruence. }
  assert (NDm : NoDup (dkeys (merge_rule k f))) by (rewrite MK; exact (wf_keys k W)).
  split; [|split].
  - constructor; [exact NDm| | |].
    + intros i l E. rewrite MD in E. destruct (dget streq k i) as [l0|] eqn:E0; [|discriminate]. injection E as <-.
      pose proof (wf_some k W _ _ E0) as X. destruct (dget streq f i) as [v|]; [|exact X].
      unfold addv. destruct (_ || _)%bool; [exact X|]. now destruct l0.
    + intros i l x E Hx. rewrite MD in E. destruct (dget streq k i) as [l0|] eqn:E0; [|discriminate]. injection E as <-.
      destruct (dget streq f i) as [v|] eqn:EF; [|exact (wf_vals k W _ _ _ E0 Hx)].
      pose proof (NE _ (FD _ _ EF)) as Hv. cbn [snd] in Hv. destruct (AV v l0 Hv) as [[R _]|[R _]]; rewrite R in Hx.
      * exact (wf_vals k W _ _ _ E0 Hx).
      * apply in_app_or in Hx. destruct Hx as [Hx|[<-|[]]]; [exact (wf_vals k W _ _ _ E0 Hx) | exact Hv].
    + assert (L1 : forall i l, dget streq (merge_rule k f) i = Some l -> 1 < length l -> m = Some i).
      { intros i l E L. rewrite MD in E. destruct (dget streq k i) as [l0|] eqn:E0; [|discriminate]. injection E as <-.
        destruct (KF _ _ E0) as (v & EF). rewrite EF in L.
        destruct m as [m0|].
        - destruct (streq_spec m0 i) as [->|N0]; [reflexivity|]. exfalso.
          rewrite (SG i l0 v E0 EF) in L by congruence. unfold addv in L. cbn [existsb] in L. rewrite streq_refl in L. cbn [orb length] in L. lia.
        - exfalso. rewrite (SG i l0 v E0 EF) in L by congruence. unfold addv in L. cbn [existsb] in L. rewrite streq_refl in L. cbn [orb length] in L. lia. }
      intros i j l l' E E' L L'. apply L1 in E; [|exact L]. apply L1 in E'; [|exact L']. congruence.
  - intros Hf X. rewrite X in MK. unfold dkeys in MK. cbn [map] in MK. destruct k; [|discriminate].
    destruct f; [congruence|discriminate].
  - intros tag. rewrite (accepts_dget _ _ NDm), (accepts_dget _ _ (wf_keys k W)). split.
    + intros H.
      assert (D : (forall i l, dget streq k i = Some l -> exists x, tag i = Some x /\ In x l) \/
                  exists i l, m = Some i /\ dget streq k i = Some l /\ ~ (exists x, tag i = Some x /\ In x l)).
      { assert (O : forall i l, m <> Some i -> dget streq k i = Some l -> exists x, tag i = Some x /\ In x l).
        { intros i l NM E. destruct (KF _ _ E) as (v & EF). destruct (H i (addv l v)) as (x & A & B); [rewrite MD, E, EF; reflexivity|].
          rewrite (SG i l v E EF NM) in *. unfold addv in B. cbn [existsb] in B. rewrite streq_refl in B. cbn [orb] in B. now exists x. }
        destruct m as [m0|]; [|left; intros i l E; apply (O i l); [discriminate|exact E]].
        destruct (dget streq k m0) as [l0|] eqn:E0.
        - destruct (tag m0) as [x|] eqn:ET.
          + destruct (in_dec (list_eq_dec N.eq_dec) x l0) as [I|I].
            * left. intros i l E. destruct (streq_spec m0 i) as [<-|N0]; [|apply (O i l); congruence].
              exists x. split; [exact ET|congruence].
            * right. exists m0, l0. split; [reflexivity|]. split; [exact E0|]. intros (y & A & B). congruence.
          + right. exists m0, l0. split; [reflexivity|]. split; [exact E0|]. intros (y & A & B). congruence.
        - left. intros i l E. apply (O i l); congruence. }
      destruct D as [D|(i0 & l0 & EM & E0 & NX)]; [now left|]. right.
      destruct (KF _ _ E0) as (v0 & F0). pose proof (NE _ (FD _ _ F0)) as Hv0. cbn [snd] in Hv0.
      intros [i v] Hx. unfold has. cbn [fst snd].
      assert (EF : dget streq f i = Some v) by (apply (dget_NoDup_In streq streq_spec); [exact ND|exact Hx]).
      destruct (streq_spec i i0) as [->|NI].
      * assert (v = v0) by congruence. subst v. destruct (H i0 (addv l0 v0)) as (x & A & B); [rewrite MD, E0, F0; reflexivity|].
        destruct (AV v0 l0 Hv0) as [[R _]|[R _]]; rewrite R in B; [exfalso; apply NX; now exists x|].
        apply in_app_or in B. destruct B as [B|[<-|[]]]; [exfalso; apply NX; now exists x | exact A].
      * destruct (HM _ Hx) as [X|X]; cbn [fst snd] in X; [congruence|].
        destruct (H i [v]) as (x & A & [<-|[]]); [|exact A]. rewrite MD, X, EF. unfold addv. cbn [existsb]. now rewrite streq_refl.
    + intros H i l E. rewrite MD in E. destruct (dget streq k i) as [l0|] eqn:E0; [|discriminate]. injection E as <-.
      destruct (KF _ _ E0) as (v & EF). rewrite EF. pose proof (NE _ (FD _ _ EF)) as Hv. cbn [snd] in Hv.
      destruct H as [H|H].
      * destruct (H i l0 E0) as (x & A & B). exists x. split; [exact A|]. unfold addv. destruct (_ || _)%bool; [exact B|].
        apply in_or_app. now left.
      * exists v. split; [exact (H _ (FD _ _ EF))|]. destruct (AV v l0 Hv) as [[R I]|[R _]]; rewrite R; [exact I|].
        apply in_or_app. right. now left.
Qed.

(** *** The best rule, and skipping *)
Lemma best_rule_spec f : forall ks pos best p s, best_rule ks f pos best = Some (p, s) ->
  best = Some (p, s) \/ exists k n, p = pos + n /\ nth_error ks n = Some k /\ rule_score k f = Some s.
Proof.
  induction ks as [|k ks IH]; intros pos best p s H; cbn [best_rule] in H; [now left|].
  destruct (IH _ _ _ _ H) as [E|(k' & n & -> & A & B)].
  - destruct (rule_score k f) as [s0|] eqn:ES; [|now left].
    destruct best as [[p1 s1]|].
    + destruct (Nat.ltb s1 s0); [|now left]. injection E as <- <-. right. exists k, 0. split; [lia|]. now split.
    + injection E as <- <-. right. exists k, 0. split; [lia|]. now split.
  - right. exists k', (S n). split; [lia|]. now split.
Qed.
Lemma update_spec {A} (g : A -> A) : forall l n x, nth_error l n = Some x ->
  exists a b, l = a ++ x :: b /\ update l n g = a ++ g x :: b.
Proof.
  induction l as [|y l IH]; intros [|n] x H; cbn [nth_error] in H; try discriminate.
  - injection H as ->. exists [], l. now split.
  - destruct (IH n x H) as (a & b & -> & E). exists (y :: a), b. cbn [update app]. rewrite E. now split.
Qed.

Lemma combinations_incl {A} : forall (l : list A) n y, In y (combinations l n) -> incl y l /\ length y = n.
Proof.
  induction l as [|x l IH]; intros [|n] y H; cbn [combinations] in H.
  - destruct H as [<-|[]]. split; [intros z [] | reflexivity].
  - destruct H.
  - destruct H as [<-|[]]. split; [intros z [] | reflexivity].
  - apply in_app_or in H. destruct H as [H|H].
    + apply in_map_iff in H. destruct H as (y' & <- & H). apply IH in H. destruct H as [I L]. split; [|cbn [length]; lia].
      intros z [<-|Hz]; [now left | right; now apply I].
    + apply IH in H. destruct H as [I L]. split; [|exact L]. intros z Hz. right. now apply I.
Qed.
Lemma feateq_true a b : feateq a b = true <-> a = b.
Proof.
  unfold feateq. rewrite Bool.andb_true_iff, !streq_true. destruct a, b; cbn [fst snd]. split; [intros [-> ->]; reflexivity | intros E; injection E as -> ->; now split].
Qed.
Lemma subset_incl a b : subset a b = true <-> incl a b.
Proof.
  unfold subset. rewrite forallb_forall. split.
  - intros H x Hx. apply H in Hx. apply existsb_exists in Hx. destruct Hx as (y & Hy & E). apply feateq_true in E. now subst.
  - intros H x Hx. apply existsb_exists. exists x. split; [now apply H | now apply feateq_true].
Qed.
Lemma seteq_incl a b : seteq a b = true <-> incl a b /\ incl b a.
Proof. unfold seteq. now rewrite Bool.andb_true_iff, !subset_incl. Qed.
Lemma dget_seteq (al : already) y v : dget seteq al y = Some v -> exists x, In (x, v) al /\ incl x y /\ incl y x.
Proof.
  induction al as [|[x w] al IH]; intros H; [discriminate|]. cbn [dget] in H. destruct (seteq y x) eqn:E.
  - injection H as ->. exists x. apply seteq_incl in E. split; [now left | tauto].
  - destruct (IH H) as (x' & A & B). exists x'. split; [now right | exact B].
Qed.
Lemma dset_seteq (al : already) f v x w : In (x, w) (dset seteq al f v) ->
  (w = v /\ incl x f /\ incl f x) \/ In (x, w) al.
Proof.
  induction al as [|[x' w'] al IH]; cbn [dset]; intros H.
  - destruct H as [E|[]]. injection E as <- <-. left. split; [reflexivity|]. split; apply incl_refl.
  - destruct (seteq f x') eqn:E.
    + destruct H as [X|H]; [|right; now right]. injection X as <- <-. left. apply seteq_incl in E. tauto.
    + destruct H as [X|H]; [right; left; exact X|]. destruct (IH H) as [X|X]; [now left | right; now right].
Qed.

Lemma skip_fold al v : forall ys s0, fold_left (skip_one al v) ys s0 = Some true ->
  s0 = Some true \/ exists y, In y ys /\ dget seteq al y = Some v.
Proof.
  induction ys as [|y ys IH]; intros s0 H; cbn [fold_left] in H; [now left|].
  destruct (IH _ H) as [E|(y' & A & B)]; [|right; exists y'; split; [now right|exact B]].
  unfold skip_one in E. destruct (dget seteq al y) as [c|] eqn:D; [|now left].
  destruct (streq_spec c v) as [->|_]; [|discriminate]. right. exists y. split; [now left|exact D].
Qed.
Lemma skip_loop_spec al v f : forall n s0, skip_loop al v f n s0 = Some true ->
  s0 = Some true \/ exists y, incl y f /\ y <> [] /\ dget seteq al y = Some v.
Proof.
  induction n as [|n IH]; intros s0 H; [now left|]. cbn [skip_loop] in H.
  assert (G : fold_left (skip_one al v) (combinations f (S n)) s0 = Some true ->
    s0 = Some true \/ exists y, incl y f /\ y <> [] /\ dget seteq al y = Some v).
  { intros X. destruct (skip_fold _ _ _ _ X) as [E|(y & A & B)]; [now left|]. right. exists y.
    apply combinations_incl in A. destruct A as [A L]. split; [exact A|]. split; [intros ->; discriminate | exact B]. }
  destruct (fold_left (skip_one al v) (combinations f (S n)) s0) as [[|]|] eqn:E; [auto|discriminate|].
  destruct (IH _ H) as [X|X]; [discriminate | now right].
Qed.

(** *** All leaves *)
Notation given s := (filter (fun x : feat => negb (streq (snd x) [])) s).
Lemma given_In x s : In x (given s) <-> In x s /\ snd x <> [].
Proof.
  rewrite filter_In, Bool.negb_true_iff, streq_false. reflexivity.
Qed.
Definition covers (ks : list rule) (f : list feat) : Prop :=
  forall tag : lang, (forall x, In x f -> has tag x) -> exists k, In k ks /\ (f <> [] -> k <> []) /\ accepts k tag.
Definition covered (vals : list (pystr * list rule)) (v : pystr) (f : list feat) : Prop :=
  exists ks, dget streq vals v = Some ks /\ covers ks f.
Record inv (dn : list (pystr * list feat)) (st : sstate) : Prop := mkInv {
  inv_keys : NoDup (dkeys (s_vals st));
  inv_rules : forall v ks k, dget streq (s_vals st) v = Some ks -> In k ks -> wf k /\
     forall tag, accepts k tag -> exists s, In (v, s) dn /\ forall x, In x (given s) -> has tag x;
  inv_already : forall x v, In (x, v) (s_already st) -> covered (s_vals st) v x;
  inv_done : forall v s, In (v, s) dn -> covered (s_vals st) v (given s) }.

Lemma covers_incl ks f g : covers ks f -> incl f g -> (g <> [] -> f <> []) -> covers ks g.
Proof.
  intros H I N tag Hg. destruct (H tag) as (k & A & B & D); [auto|]. exists k. split; [exact A|]. split; [auto|exact D].
Qed.

(** replacing the rules of one result by others that accept more *)
Lemma inv_put dn st al v s ks' :
  inv dn st ->
  let f := given s in let old := match dget streq (s_vals st) v with Some ks => ks | None => [] end in
  (forall x w, In (x, w) al -> (w = v /\ incl x f /\ incl f x) \/ In (x, w) (s_already st)) ->
  (forall k, In k ks' -> wf k /\ forall tag, accepts k tag ->
      (exists k0, In k0 old /\ accepts k0 tag) \/ (forall x, In x f -> has tag x)) ->
  (forall k0, In k0 old -> exists k, In k ks' /\ (k0 <> [] -> k <> []) /\ forall tag, accepts k0 tag -> accepts k tag) ->
  covers ks' f ->
  inv (dn ++ [(v, s)]) (mkS al (dset streq (s_vals st) v ks')).
Proof.
  intros I f old HA HN HO HC. destruct I as [I1 I2 I3 I4].
  assert (G : forall w g, covered (s_vals st) w g -> covered (dset streq (s_vals st) v ks') w g).
  { intros w g (ks & E & Hk). destruct (streq_spec w v) as [->|NE].
    - exists ks'. split; [apply (dget_dset_same streq streq_spec)|]. intros tag Ht. destruct (Hk tag Ht) as (k0 & A & B & D).
      destruct (HO k0) as (k & A' & B' & D'); [unfold old; rewrite E; exact A|]. exists k. split; [exact A'|]. split; [auto|]. now apply D'.
    - exists ks. split; [|exact Hk]. rewrite (dget_dset_other streq streq_spec); [exact E|exact NE]. }
  assert (C : covered (dset streq (s_vals st) v ks') v f).
  { exists ks'. split; [apply (dget_dset_same streq streq_spec) | exact HC]. }
  constructor; cbn [s_vals s_already].
  - now apply (dset_NoDup streq streq_spec).
  - intros w ks k E Hk. destruct (streq_spec w v) as [->|NE].
    + rewrite (dget_dset_same streq streq_spec) in E. injection E as <-. destruct (HN k Hk) as [W HT]. split; [exact W|].
      intros tag Ha. destruct (HT tag Ha) as [(k0 & A & B)|B].
      * unfold old in A. destruct (dget streq (s_vals st) v) as [ks0|] eqn:E0; [|destruct A].
        destruct (I2 v ks0 k0 E0 A) as [_ X]. destruct (X tag B) as (s' & Y & Z). exists s'. split; [apply in_or_app; now left|exact Z].
      * exists s. split; [apply in_or_app; right; now left | exact B].
    + rewrite (dget_dset_other streq streq_spec) in E by exact NE. destruct (I2 w ks k E Hk) as [W X]. split; [exact W|].
      intros tag Ha. destruct (X tag Ha) as (s' & Y & Z). exists s'. split; [apply in_or_app; now left|exact Z].
  - intros x w Hx. destruct (HA x w Hx) as [(-> & X & Y)|Hx']; [|apply G, (I3 x w Hx')].
    destruct C as (ks & E & HK). exists ks. split; [exact E|]. apply (covers_incl ks f); [exact HK|exact Y|].
    intros NX ->. destruct x as [|a x]; [congruence|]. destruct (X a (or_introl eq_refl)).
  - intros w s' Hs. apply in_app_or in Hs. destruct Hs as [Hs|[E|[]]]; [apply G, (I4 w s' Hs)|]. injection E as <- <-. exact C.
Qed.

Lemma step_inv dn st v s : inv dn st -> NoDup (map fst (given s)) -> inv (dn ++ [(v, s)]) (simple_step st (v, s)).
Proof.
  intros I ND. unfold simple_step. set (f := given s) in *.
  assert (NE : nonempty f) by (intros x Hx; now apply given_In in Hx).
  assert (NEW : inv (dn ++ [(v, s)]) (mkS (dset seteq (s_already st) f v) (dset streq (s_vals st) v
     ((match dget streq (s_vals st) v with Some ks => ks | None => [] end) ++ [new_rule f])))).
  { apply inv_put; [exact I| | | |].
    - apply dset_seteq.
    - intros k Hk. apply in_app_or in Hk. destruct Hk as [Hk|[<-|[]]].
      + destruct (dget streq (s_vals st) v) as [ks|] eqn:E; [|destruct Hk]. destruct (inv_rules _ _ I v ks k E Hk) as [W _].
        split; [exact W|]. intros tag Ha. left. now exists k.
      + split; [now apply new_rule_wf|]. intros tag Ha. right. now apply new_rule_accepts.
    - intros k0 Hk. exists k0. split; [apply in_or_app; now left|]. split; auto.
    - intros tag Ht. exists (new_rule f). split; [apply in_or_app; right; now left|]. split; [|now apply new_rule_accepts].
      rewrite new_rule_map by exact ND. intros Z X. apply map_eq_nil in X. now apply Z. }
  assert (OTHER : inv (dn ++ [(v, s)])
    (match dget streq (s_vals st) v with
     | Some ks => match best_rule ks f 0 None with
          | Some (p, _) => mkS (dset seteq (s_already st) f v) (dset streq (s_vals st) v (update ks p (fun k => merge_rule k f)))
          | None => mkS (dset seteq (s_already st) f v) (dset streq (s_vals st) v (ks ++ [new_rule f]))
          end
     | None => mkS (dset seteq (s_already st) f v) (dset streq (s_vals st) v [new_rule f])
     end)).
  { destruct (dget streq (s_vals st) v) as [ks|] eqn:E; [|exact NEW].
    destruct (best_rule ks f 0 None) as [[p sc]|] eqn:EB; [|exact NEW].
    apply best_rule_spec in EB. destruct EB as [X|(k & n & -> & A & B)]; [discriminate|]. cbn [Nat.add].
    destruct (update_spec (fun k => merge_rule k f) _ _ _ A) as (a & b & -> & U). rewrite U.
    assert (W : forall k', In k' (a ++ k :: b) -> wf k') by (intros k' Hk'; apply (inv_rules _ _ I v _ k' E Hk')).
    assert (Wk : wf k) by (apply W; apply in_or_app; right; now left).
    destruct (merge_rule_ok k f sc Wk ND NE B) as (MW & MN & MA).
    apply inv_put; [exact I| | | |].
    - apply dset_seteq.
    - intros k' Hk'. rewrite E. apply in_app_or in Hk'. destruct Hk' as [Hk'|[<-|Hk']].
      + assert (X : In k' (a ++ k :: b)) by (apply in_or_app; now left). split; [now apply W|]. intros tag Ha. left. now exists k'.
      + split; [exact MW|]. intros tag Ha. apply MA in Ha. destruct Ha as [Ha|Ha]; [left|now right]. exists k. split; [|exact Ha].
        apply in_or_app. right. now left.
      + assert (X : In k' (a ++ k :: b)) by (apply in_or_app; right; now right). split; [now apply W|]. intros tag Ha. left. now exists k'.
    - rewrite E. intros k0 Hk. apply in_app_or in Hk. destruct Hk as [Hk|[<-|Hk]].
      + exists k0. split; [apply in_or_app; now left|]. split; auto.
      + exists (merge_rule k f). split; [apply in_or_app; right; now left|]. split; [|intros tag Ha; apply MA; now left].
        intros NK. apply MN. intros EF. destruct (rule_score_spec k f sc Wk ND B) as (L & _). rewrite EF in L. now destruct k.
      + exists k0. split; [apply in_or_app; right; now right|]. split; auto.
    - intros tag Ht. exists (merge_rule k f). split; [apply in_or_app; right; now left|]. split; [exact MN|]. apply MA. now right. }
  destruct (skip_loop (s_already st) v f (length f - 1) None) as [[|]|] eqn:ES; [|exact OTHER|exact OTHER].
  apply skip_loop_spec in ES. destruct ES as [X|(y & Y1 & Y2 & Y3)]; [discriminate|].
  destruct I as [I1 I2 I3 I4]. constructor; [exact I1| |exact I3|].
  - intros w ks k E Hk. destruct (I2 w ks k E Hk) as [W X]. split; [exact W|]. intros tag Ha.
    destruct (X tag Ha) as (s' & Z1 & Z2). exists s'. split; [apply in_or_app; now left | exact Z2].
  - intros w s' Hs. apply in_app_or in Hs. destruct Hs as [Hs|[E|[]]]; [now apply I4|]. injection E as <- <-.
    apply dget_seteq in Y3. destruct Y3 as (x & X1 & X2 & X3). destruct (I3 x v X1) as (ks & E & HK).
    exists ks. split; [exact E|]. apply (covers_incl ks x); [exact HK| |].
    + intros z Hz. apply Y1, X2, Hz.
    + intros _ ->. destruct y as [|a y]; [congruence|]. destruct (X3 a (or_introl eq_refl)).
Qed.

Lemma simplerules_inv t : sane t -> exists st, s_vals st = simplerules t /\ inv (treerules t []) st.
Proof.
  intros S. unfold simplerules. eexists. split; [reflexivity|].
  assert (G : forall ls dn st, inv dn st -> (forall v s, In (v, s) ls -> NoDup (map fst (given s))) ->
    inv (dn ++ ls) (fold_left simple_step ls st)).
  { induction ls as [|[v s] ls IH]; intros dn st I H; [now rewrite app_nil_r|]. cbn [fold_left].
    replace (dn ++ (v, s) :: ls) with ((dn ++ [(v, s)]) ++ ls) by now rewrite <- app_assoc.
    apply IH; [apply step_inv; [exact I|]; apply (H v s); now left|]. intros v' s' Hin. apply (H v' s'). now right. }
  apply (G (treerules t []) [] (mkS [] [])).
  - constructor; cbn [s_vals s_already].
    + constructor.
    + intros v ks k E. discriminate.
    + intros x v [].
    + intros v s [].
  - intros v s Hin. apply treerules_path in Hin. destruct Hin as (a & P & ->). exact (S v a P).
Qed.

(** ** The rules that are written *)
Lemma keyleb_total a b : keyleb a b = true \/ keyleb b a = true.
Proof.
  unfold keyleb. destruct (Nat.eqb_spec (length (snd a)) (length (snd b))) as [E|N].
  - rewrite E, Nat.eqb_refl. rewrite (lcmp_antisym strcmp strcmp_antisym (rule_key a) (rule_key b)). destruct (lcmp strcmp (rule_key a) (rule_key b)); cbn [CompOpp]; auto.
  - destruct (Nat.eqb_spec (length (snd b)) (length (snd a))) as [E|_]; [congruence|].
    rewrite !Nat.ltb_lt. lia.
Qed.

Lemma keyleb_trans a b c : keyleb a b = true -> keyleb b c = true -> keyleb a c = true.
Proof.
  unfold keyleb.
  destruct (Nat.eqb_spec (length (snd a)) (length (snd b))) as [E1|N1]; destruct (Nat.eqb_spec (length (snd b)) (length (snd c))) as [E2|N2];
  destruct (Nat.eqb_spec (length (snd a)) (length (snd c))) as [E3|N3]; try congruence; rewrite ?Nat.ltb_lt; try lia.
  intros H1 H2. destruct (lcmp strcmp (rule_key a) (rule_key b)) eqn:C1; [| |discriminate].
  - apply (lcmp_eq strcmp strcmp_eq) in C1. now rewrite C1.
  - destruct (lcmp strcmp (rule_key b) (rule_key c)) eqn:C2; [| |discriminate].
    + apply (lcmp_eq strcmp strcmp_eq) in C2. now rewrite <- C2, C1.
    + now rewrite (lcmp_trans strcmp strcmp_eq strcmp_trans _ _ _ C1 C2).
Qed.

Lemma made_In vals v m : (forall w ks k, In (w, ks) vals -> In k ks -> wf k) ->
  In (v, m) (made vals) <-> exists ks k, In (v, ks) vals /\ In k ks /\ k <> [] /\ m = isort (fun a b => strleb (fst a) (fst b)) k.
Proof.
  intros W. unfold made. rewrite filter_In, in_flat_map.
  assert (ID : forall k, wf k -> filter (fun b : pystr * list pystr => match snd b with [] => false | [x] => negb (streq x []) | _ => true end)
     (isort (fun a b => strleb (fst a) (fst b)) k) = isort (fun a b => strleb (fst a) (fst b)) k).
  { intros k Wk. set (l := isort (fun a b => strleb (fst a) (fst b)) k).
    assert (H : forall b, In b l -> match snd b with [] => false | [x] => negb (streq x []) | _ => true end = true).
    { intros [i lx] Hb. unfold l in Hb. apply in_isort in Hb. apply (dget_NoDup_In streq streq_spec) in Hb; [|exact (wf_keys k Wk)].
      cbn [snd]. pose proof (wf_some k Wk _ _ Hb). destruct lx as [|x [|y lx]]; [congruence| |reflexivity].
      apply Bool.negb_true_iff, streq_false. apply (wf_vals k Wk _ _ _ Hb). now left. }
    clearbody l. induction l as [|b l IH]; [reflexivity|]. cbn [filter]. rewrite (H b (or_introl eq_refl)). f_equal. apply IH.
    intros b' Hb'. apply H. now right. }
  assert (LN : forall k : rule, length (isort (fun a b => strleb (fst a) (fst b)) k) = length k).
  { intros k. symmetry. apply Permutation_length, isort_perm. }
  split.
  - intros [(vk & Hv & Hm) HL]. apply in_map_iff in Hm. destruct Hm as (k & E & Hk). destruct vk as [w ks]. cbn [fst snd] in *.
    injection E as <- <-. pose proof (W w ks k Hv Hk) as Wk. rewrite (ID k Wk) in *. exists ks, k. split; [exact Hv|]. split; [exact Hk|].
    split; [|reflexivity]. intros ->. discriminate HL.
  - intros (ks & k & Hv & Hk & NK & ->). pose proof (W v ks k Hv Hk) as Wk. split.
    + exists (v, ks). split; [exact Hv|]. cbn [fst snd]. apply in_map_iff. exists k. rewrite (ID k Wk). now split.
    + cbn [snd]. rewrite LN. destruct k; [congruence|reflexivity].
Qed.
Lemma accepts_isort k tag : accepts (isort (fun a b => strleb (fst a) (fst b)) k) tag <-> accepts k tag.
Proof. unfold accepts. split; intros H i l Hi; apply H; [now apply in_isort | now apply in_isort in Hi]. Qed.

Lemma written_In t v m : sane t -> In (v, m) (written t) <->
  exists ks k, dget streq (simplerules t) v = Some ks /\ In k ks /\ k <> [] /\ m = isort (fun a b => strleb (fst a) (fst b)) k.
Proof.
  intros S. destruct (simplerules_inv t S) as (st & E & I). unfold written. rewrite <- E.
  rewrite in_isort, made_In.
  - split; intros (ks & k & A & B); exists ks, k; (split; [|exact B]).
    + apply (dget_NoDup_In streq streq_spec); [exact (inv_keys _ _ I) | exact A].
    + now apply (dget_In streq streq_spec).
  - intros w ks k A B. apply (inv_rules _ _ I w ks k); [|exact B]. apply (dget_NoDup_In streq streq_spec); [exact (inv_keys _ _ I) | exact A].
Qed.

(** Every rule is right about some leaf of the tree: a language that it accepts has all that is
    asked for on the way to a leaf with its font. *)
Theorem C72_rules_sound t v m tag : sane t -> In (v, m) (written t) -> accepts m tag ->
  exists a, path t v a /\ has_asked tag a.
Proof.
  intros S H HA. apply written_In in H; [|exact S]. destruct H as (ks & k & E & Hk & _ & ->).
  rewrite accepts_isort in HA. destruct (simplerules_inv t S) as (st & ES & I). rewrite <- ES in E.
  destruct (inv_rules _ _ I v ks k E Hk) as [_ X]. destruct (X tag HA) as (s & Hs & Hx).
  apply treerules_path in Hs. destruct Hs as (a & P & ->). exists a. split; [exact P|].
  intros x Hin NE. apply Hx. now apply given_In.
Qed.

(** Every leaf that asks for some subtag is kept: some rule with its font accepts all languages
    that have what is asked for. *)
Theorem C72_leaves_covered t v a tag : sane t -> path t v a -> has_asked tag a ->
  (exists x, In x a /\ snd x <> []) -> exists m, In (v, m) (written t) /\ accepts m tag.
Proof.
  intros S P HA (x & Hx & NE). destruct (simplerules_inv t S) as (st & ES & I).
  destruct (inv_done _ _ I v a) as (ks & E & C).
  { apply treerules_path. exists a. now split. }
  destruct (C tag) as (k & Hk & NK & A).
  { intros y Hy. apply given_In in Hy. now apply HA. }
  exists (isort (fun a b => strleb (fst a) (fst b)) k). split; [|now rewrite accepts_isort].
  apply written_In; [exact S|]. exists ks, k. rewrite <- ES. split; [exact E|]. split; [exact Hk|]. split; [|reflexivity].
  apply NK. intros X. assert (Y : In x (given a)) by (now apply given_In). rewrite X in Y. destruct Y.
Qed.

(** ** Looking up *)
Lemma accept_test m tag :
  forallb (fun kv : pystr * list pystr => match tag (fst kv) with Some x => existsb (streq x) (snd kv) | None => false end) m = true
  <-> accepts m tag.
Proof.
  rewrite forallb_forall. unfold accepts. split.
  - intros H i l Hi. apply H in Hi. cbn [fst snd] in Hi. destruct (tag i) as [x|]; [|discriminate]. exists x. split; [reflexivity | now apply existsb_streq].
  - intros H [i l] Hi. cbn [fst snd]. destruct (H i l Hi) as (x & -> & Hx). now apply existsb_streq.
Qed.
Theorem C72_first_match rules tag v : match1 rules tag = Some v <->
  exists before m after, rules = before ++ (v, m) :: after /\ accepts m tag /\ forall v' m', In (v', m') before -> ~ accepts m' tag.
Proof.
  induction rules as [|[w m0] rules IH]; cbn [match1].
  - split; [discriminate|]. intros ([|? ?] & m & after & E & _); discriminate.
  - destruct (forallb _ m0) eqn:F.
    + apply accept_test in F. split.
      * intros E. injection E as ->. exists [], m0, rules. split; [reflexivity|]. split; [exact F|]. intros v' m' [].
      * intros ([|[w' m'] before] & m & after & E & A & N); injection E as -> -> ->; [reflexivity|].
        exfalso. apply (N w' m'); [now left | exact F].
    + assert (NF : ~ accepts m0 tag) by (rewrite <- accept_test; congruence). rewrite IH. split.
      * intros (before & m & after & -> & A & N). exists ((w, m0) :: before), m, after. split; [reflexivity|]. split; [exact A|].
        intros v' m' [E|Hin]; [injection E as <- <-; exact NF | exact (N v' m' Hin)].
      * intros ([|[w' m'] before] & m & after & E & A & N); injection E as -> -> ->; [contradiction|].
        exists before, m, after. split; [reflexivity|]. split; [exact A|]. intros v2 m2 Hin. apply (N v2 m2). now right.
Qed.

(** The font that is found belongs to a leaf for which the language has all that is asked, by a
    rule that no other rule that accepts the language has more conditions than. *)
Theorem C72_answer t tag v : sane t -> match1 (written t) tag = Some v ->
  exists m a, In (v, m) (written t) /\ accepts m tag /\ path t v a /\ has_asked tag a /\
    forall v' m', In (v', m') (written t) -> accepts m' tag -> length m' <= length m.
Proof.
  intros S H. apply C72_first_match in H. destruct H as (before & m & after & E & A & N).
  assert (Hin : In (v, m) (written t)) by (rewrite E; apply in_or_app; right; now left).
  destruct (C72_rules_sound t v m tag S Hin A) as (a & P & HA). exists m, a.
  do 4 (split; [assumption|]). intros v' m' Hin' A'.
  assert (SS : StronglySorted (fun a b => keyleb a b = true) (written t)) by (apply isort_sorted; [exact keyleb_total | exact keyleb_trans]).
  rewrite E in Hin', SS. apply in_app_or in Hin'. destruct Hin' as [Hb|[X|Ha]].
  - exfalso. exact (N v' m' Hb A').
  - injection X as _ ->. lia.
  - clear -SS Ha. induction before as [|b before IH]; cbn [app] in SS.
    + inversion SS as [|? ? _ F]; subst. rewrite Forall_forall in F. specialize (F _ Ha). unfold keyleb in F. cbn [snd] in F.
      destruct (Nat.eqb_spec (length m) (length m')) as [X|_]; [lia|]. apply Nat.ltb_lt in F. lia.
    + inversion SS; subst. now apply IH.
Qed.

(** The tree's own font for a language is at a leaf for which the language has all that is asked. *)
Theorem C72_tree_font t tag v : tree_font tag t v -> exists a, path t v a /\ has_asked tag a.
Proof.
  induction 1 as [w|f l r w N H IH|f l r w N H IH].
  - exists []. split; [constructor|]. intros x [].
  - destruct IH as (a & P & A). exists a. split; [now constructor|exact A].
  - destruct IH as (a & P & A). exists (f :: a). split; [now constructor|]. intros x [<-|Hx] NE; [|now apply A].
    unfold holds in N. unfold has. destruct (tag (fst f)); congruence.
Qed.
(** Nothing is found only if no subtag of the language is asked for on the way to the tree's own
    font. *)
Theorem C72_nothing t tag : sane t -> match1 (written t) tag = None ->
  forall v a, path t v a -> has_asked tag a -> forall x, In x a -> snd x = [].
Proof.
  intros S H v a P A x Hx. destruct (list_eq_dec N.eq_dec (snd x) []) as [E|NE]; [exact E|]. exfalso.
  destruct (C72_leaves_covered t v a tag S P A) as (m & Hm & AM); [now exists x|].
  revert H Hm. induction (written t) as [|[w m0] rs IH]; intros H Hm; [destruct Hm|]. cbn [match1] in H.
  destruct (forallb _ m0) eqn:F; [discriminate|]. destruct Hm as [E|Hm]; [|now apply IH].
  injection E as -> ->. apply accept_test in AM. congruence.
Qed.

(** ** Refuted *)
Definition lang0 (l s r : String.string) : lang := fun k =>
  if streq k (lit "lang") then Some (lit l) else if streq k (lit "scr") then Some (lit s) else if streq k (lit "reg") then Some (lit r) else None.
Definition tree0 : dtree := Node (lit "lang", lit "aa")
  (Node (lit "scr", lit "Arab") (Leaf (lit "Plain|")) (Leaf (lit "Arabic|")))
  (Node (lit "reg", lit "DJ") (Leaf (lit "Special|")) (Leaf (lit "Special|kern=1"))).
Example C72_ex_sane : sane tree0.
Proof.
  assert (D1 : NoDup [lit "scr"]) by (constructor; [intros []|constructor]).
  intros v a P. inversion P as [|? ? ? ? ? P1|? ? ? ? b P1]; subst; inversion P1 as [|? ? ? ? ? P2|? ? ? ? c P2]; subst; inversion P2; subst; cbn [filter map snd fst negb];
    vm_compute; repeat (constructor; [intros H; repeat (destruct H as [H|H]; [discriminate H|]); destruct H|]); constructor.
Qed.
(** The rules do not always give a language the font that the tree gives it: what must not hold
    on the way to a leaf is forgotten. *)
Theorem C72_same_font_refuted : ~ (forall t tag v w, sane t -> tree_font tag t v -> match1 (written t) tag = Some w -> w = v).
Proof.
  intros H. specialize (H tree0 (lang0 "aa" "Arab" "ET") (lit "Special|") (lit "Arabic|") C72_ex_sane).
  assert (X : lit "Arabic|" = lit "Special|"); [|discriminate X]. apply H.
  - apply tf_right; [reflexivity|]. apply tf_left; [discriminate|]. constructor.
  - vm_compute. reflexivity.
Qed.
(** Languages at the leaf that asks for nothing get no font. *)
Theorem C72_default_refuted : ~ (forall t tag v, sane t -> tree_font tag t v -> match1 (written t) tag <> None).
Proof.
  intros H. apply (H tree0 (lang0 "bb" "Latn" "ET") (lit "Plain|") C72_ex_sane).
  - apply tf_left; [discriminate|]. apply tf_left; [discriminate|]. constructor.
  - vm_compute. reflexivity.
Qed.
Example C72_ex_written : written tree0 = [(lit "Special|kern=1", [(lit "lang", [lit "aa"]); (lit "reg", [lit "DJ"])]);
  (lit "Arabic|", [(lit "scr", [lit "Arab"])]); (lit "Special|", [(lit "lang", [lit "aa"])])].
Proof. vm_compute. reflexivity. Qed.
Example C72_ex_answer : match1 (written tree0) (lang0 "aa" "Arab" "DJ") = Some (lit "Special|kern=1").
Proof. vm_compute. reflexivity. Qed.

(** ** Which font *)
(** The identifier does not depend on the order of the features, nor on those that are off. *)
Theorem C72_fontid words name a b :
  (forall f, (exists g, f = g ++ lit "=0") -> ends_zero f = true) /\
  (Permutation (filter (fun f => negb (ends_zero f)) (words a)) (filter (fun f => negb (ends_zero f)) (words b)) ->
   fontid words name a = fontid words name b).
Proof.
  split.
  - intros f (g & ->). induction g as [|x g IH]; [reflexivity|]. cbn [app]. destruct g as [|y g]; [reflexivity|].
    cbn [app] in *. destruct (g ++ lit "=0") as [|z l] eqn:E; [destruct g; discriminate|]. exact IH.
  - intros P. unfold fontid. f_equal. f_equal. f_equal. apply isort_perm_eq; [exact strleb_total|exact strleb_trans| |exact P].
    intros x y _ _. apply strleb_antisym.
Qed.
Example C72_ex_fontid : let words := split_on 32 in
  fontid words (lit "Charis") (lit "smcp=1 kern=0 cv43=1") = lit "Charis|cv43=1 smcp=1".
Proof. vm_compute. reflexivity. Qed.

(** A document's font is the first with "default" in its types, or else the last without types. *)
Theorem C72_pick words fs r : pick_font words fs None = r ->
  (exists a f b, fs = a ++ f :: b /\ (exists p q, f_types f = p ++ lit "default" ++ q) /\
     (forall g, In g a -> ~ exists p q, f_types g = p ++ lit "default" ++ q) /\ r = Some (fontid words (f_name f) (f_feats f))) \/
  ((forall g, In g fs -> ~ exists p q, f_types g = p ++ lit "default" ++ q) /\
   ((exists a f b, fs = a ++ f :: b /\ f_types f = [] /\ (forall g, In g b -> f_types g <> []) /\ r = Some (fontid words (f_name f) (f_feats f))) \/
    ((forall g, In g fs -> f_types g <> []) /\ r = None))).
Proof.
  assert (OC : forall p s, occurs p s = true <-> exists x y, s = x ++ p ++ y).
  { intros p. assert (SW : forall s, startswith p s = true <-> exists y, s = p ++ y).
    { intros s. unfold startswith. revert s. induction p as [|c p IHp]; intros s; cbn [strip_prefix].
      - split; [intros _; now exists s | reflexivity].
      - destruct s as [|d s]; [split; [discriminate | intros (y & E); discriminate]|].
        destruct (N.eqb_spec c d) as [->|NE].
        + rewrite IHp. split; intros (y & E); exists y; [now rewrite E | now injection E].
        + split; [discriminate|]. intros (y & E). injection E as E _. congruence. }
    induction s as [|c s IHs]; cbn [occurs]; rewrite Bool.orb_true_iff, SW.
    - split; [intros [(y & E)|X]; [exists [], y; exact E | discriminate]|]. intros (x & y & E). left. destruct x; [now exists y | discriminate].
    - rewrite IHs. split.
      + intros [(y & E)|(x & y & ->)]; [exists [], y; exact E | exists (c :: x), y; reflexivity].
      + intros (x & y & E). destruct x as [|c' x]; [left; now exists y | right]. injection E as -> ->. now exists x, y. }
  assert (DE : ~ exists p q, @nil N = p ++ lit "default" ++ q) by (intros (p & q & E); destruct p; discriminate).
  assert (G : forall fs fb, 
    (exists a f b, fs = a ++ f :: b /\ (exists p q, f_types f = p ++ lit "default" ++ q) /\
       (forall g, In g a -> ~ exists p q, f_types g = p ++ lit "default" ++ q) /\ pick_font words fs fb = Some (fontid words (f_name f) (f_feats f))) \/
    ((forall g, In g fs -> ~ exists p q, f_types g = p ++ lit "default" ++ q) /\
     ((exists a f b, fs = a ++ f :: b /\ f_types f = [] /\ (forall g, In g b -> f_types g <> []) /\ pick_font words fs fb = Some (fontid words (f_name f) (f_feats f))) \/
      ((forall g, In g fs -> f_types g <> []) /\ pick_font words fs fb = fb)))).
  { clear fs r. induction fs as [|f fs IH]; intros fb; cbn [pick_font].
    - right. split; [intros g []|]. right. split; [intros g []|reflexivity].
    - destruct (streq_spec (f_types f) []) as [E0|N0].
      + destruct (IH (Some (fontid words (f_name f) (f_feats f)))) as [(a & x & b & -> & A & B & D)|[A [(a & x & b & -> & B)|[B D]]]].
        * left. exists (f :: a), x, b. split; [reflexivity|]. split; [exact A|]. split; [|exact D].
          intros g [<-|Hg]; [rewrite E0; exact DE | now apply B].
        * right. split; [intros g [<-|Hg]; [rewrite E0; exact DE | now apply A]|]. left. exists (f :: a), x, b. split; [reflexivity|exact B].
        * right. split; [intros g [<-|Hg]; [rewrite E0; exact DE | now apply A]|]. left. exists [], f, fs. split; [reflexivity|].
          split; [exact E0|]. split; [exact B|exact D].
      + destruct (occurs (lit "default") (f_types f)) eqn:EO.
        * left. exists [], f, fs. split; [reflexivity|]. split; [now apply OC|]. split; [intros g []|reflexivity].
        * assert (ND : ~ exists p q, f_types f = p ++ lit "default" ++ q) by (rewrite <- OC; congruence).
          destruct (IH fb) as [(a & x & b & -> & A & B & D)|[A [(a & x & b & -> & B)|[B D]]]].
          -- left. exists (f :: a), x, b. split; [reflexivity|]. split; [exact A|]. split; [|exact D]. intros g [<-|Hg]; [exact ND | now apply B].
          -- right. split; [intros g [<-|Hg]; [exact ND | now apply A]|]. left. exists (f :: a), x, b. split; [reflexivity|exact B].
          -- right. split; [intros g [<-|Hg]; [exact ND | now apply A]|]. right. split; [intros g [<-|Hg]; [exact N0 | now apply B]|exact D]. }
  intros <-. apply G.
Qed.
Example C72_ex_pick : pick_font (split_on 32) [mkFont (lit "A") [] []; mkFont (lit "B") (lit "ui") []; mkFont (lit "C") (lit "emphasis default") []] None = Some (lit "C|").
Proof. vm_compute. reflexivity. Qed.
