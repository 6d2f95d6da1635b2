(** C65: resolving aliases puts the content of the target in the place of the alias. *)
From Coq Require Import String.
From Verif Require Import Py PyFacts M_Alias.
Local Open Scope list_scope.
Local Open Scope nat_scope.

(** * Specification *)

(** What a reader of the document sees at an element. *)
Inductive tree := T (tag : pystr) (attrs : list (pystr * pystr)) (text : option pystr) (ts : list tree).
Definition t_kids (t : tree) : list tree := let 'T _ _ _ ts := t in ts.
Inductive shows (h : heap) : id -> tree -> Prop :=
| Shows n e ts : nth_error h n = Some e -> Forall2 (shows h) (e_kids e) ts ->
    shows h n (T (e_tag e) (e_attrs e) (e_text e) ts).

(** An alias with a path. *)
Definition link (h : heap) (c : id) (v : pystr) : Prop :=
  exists e, nth_error h c = Some e /\ e_tag e = lit "alias" /\ dget streq (e_attrs e) (lit "path") = Some v.
Definition is_link (h : heap) (c : id) : Prop := exists v, link h c v.
(** No alias with a path is left among the children *)
Definition nolink (h : heap) (n : id) : Prop := forall c, In c (kids h n) -> ~ is_link h c.
(** nor further down. *)
Inductive linkfree (h : heap) : id -> Prop :=
| Linkfree n : nolink h n -> (forall c, In c (kids h n) -> linkfree h c) -> linkfree h n.

(** Where a path leads. *)
Inductive reaches (h : heap) : list step -> id -> id -> Prop :=
| ReachHere n : reaches h [] n n
| ReachUp n e p ss m : nth_error h n = Some e -> e_parent e = Some p -> reaches h ss p m -> reaches h (Up :: ss) n m
| ReachChild n c e tag tests ss m : In c (kids h n) -> nth_error h c = Some e -> e_tag e = tag ->
    (forall a v, In (a, v) tests -> dget streq (e_attrs e) a = Some v) -> reaches h ss c m ->
    reaches h (Child tag tests :: ss) n m.

(** No element whose children the path looks at has an alias among them. *)
Fixpoint clear_way (h : heap) (ss : list step) (ctx : list id) : Prop :=
  match ss with
  | [] => True
  | s :: ss' => match s with Up => True | Child _ _ => forall n, In n ctx -> nolink h n end
                /\ clear_way h ss' (flat_map (walk1 h s) ctx)
  end.

(** The meaning of a document with aliases: children stand for themselves, an alias with a path
    for the children of the first element the path finds, or for nothing. Their order is kept if
    the alias comes last. *)
Definition alias_last (h : heap) (n : id) : Prop :=
  exists own c, kids h n = own ++ [c] /\ forall d, In d own -> ~ is_link h d.
Inductive resolved (steps : pystr -> list step) (h : heap) : id -> tree -> Prop :=
| Resolved n e ps ts : nth_error h n = Some e -> Forall2 (piece steps h n) (e_kids e) ps ->
    Permutation ts (concat ps) -> (nolink h n \/ alias_last h n -> ts = concat ps) ->
    resolved steps h n (T (e_tag e) (e_attrs e) (e_text e) ts)
with piece (steps : pystr -> list step) (h : heap) : id -> id -> list tree -> Prop :=
| PieceOwn n c t : ~ is_link h c -> resolved steps h c t -> piece steps h n c [t]
| PieceNone n c v : link h c v -> findall h (steps v) [n] = [] -> piece steps h n c []
| PieceLink n c v m ms t : link h c v -> findall h (steps v) [n] = m :: ms -> resolved steps h m t ->
    piece steps h n c (t_kids t).

(** A document whose aliases do not go round in circles: [rk] falls from an element to its
    children and from an element with an alias to what the alias stands for. *)
Record sound (steps : pystr -> list step) (h : heap) (rk : id -> nat) : Prop := {
  s_kids : forall n c, In c (kids h n) -> c < length h;
  s_parent : forall n e p, nth_error h n = Some e -> e_parent e = Some p -> p < length h;
  s_alias : forall c e, nth_error h c = Some e -> e_tag e = lit "alias" -> e_kids e = [];
  s_down : forall n c, In c (kids h n) -> ~ is_link h c -> rk c < rk n;
  s_link : forall n c v m ms, In c (kids h n) -> link h c v -> findall h (steps v) [n] = m :: ms -> rk m < rk n;
  s_clear : forall n c v, In c (kids h n) -> link h c v -> clear_way h (steps v) [n]
}.

(** * Proof *)
Lemma nth_put h : forall n e m, nth_error (put h n e) m = if Nat.eqb m n then (if n <? length h then Some e else None) else nth_error h m.
Proof.
  induction h as [|e0 h IH]; intros n e m; cbn [put].
  - destruct (Nat.eqb m n); [|reflexivity]. cbn. destruct m; reflexivity.
  - destruct n as [|n], m as [|m]; cbn [nth_error Nat.eqb]; try reflexivity.
    rewrite IH. destruct (Nat.eqb m n); [|reflexivity]. cbn [length]. destruct (Nat.ltb_spec n (length h)), (Nat.ltb_spec (S n) (S (length h))); try reflexivity; lia.
Qed.
Lemma put_length h : forall n e, length (put h n e) = length h.
Proof. induction h as [|e0 h IH]; intros [|n] e; cbn; [reflexivity..|]. now rewrite IH. Qed.
Lemma nth_put_kids h n l m : nth_error (put_kids h n l) m =
  match nth_error h m with Some e => Some (if Nat.eqb m n then set_kids e l else e) | None => None end.
Proof.
  unfold put_kids. destruct (nth_error h n) as [e|] eqn:E.
  - rewrite nth_put. destruct (Nat.eqb_spec m n) as [->|N].
    + rewrite E. assert (n < length h) by (apply nth_error_Some; congruence). apply Nat.ltb_lt in H. now rewrite H.
    + destruct (nth_error h m); reflexivity.
  - destruct (Nat.eqb_spec m n) as [->|N]; [now rewrite E|]. destruct (nth_error h m); reflexivity.
Qed.
Lemma put_kids_length h n l : length (put_kids h n l) = length h.
Proof. unfold put_kids. destruct (nth_error h n); [apply put_length|reflexivity]. Qed.
Lemma kids_put_same h n l : n < length h -> kids (put_kids h n l) n = l.
Proof.
  intro H. unfold kids. rewrite nth_put_kids. apply nth_error_Some in H. destruct (nth_error h n); [|congruence].
  now rewrite Nat.eqb_refl.
Qed.

Lemma remove_first_spec n l : In n l -> exists a b, remove_first n l = Some (a ++ b) /\ l = a ++ n :: b /\ ~ In n a.
Proof.
  induction l as [|m l IH]; [intros []|]. cbn [remove_first]. destruct (Nat.eqb_spec m n) as [->|N].
  - intros _. exists [], l. auto.
  - intros [E|H]; [congruence|]. destruct (IH H) as (a & b & -> & -> & Ha). exists (m :: a), b.
    split; [reflexivity|]. split; [reflexivity|]. intros [E|Ha']; [congruence|contradiction].
Qed.
Lemma insert_at_perm i x l : Permutation (insert_at i x l) (x :: l).
Proof.
  unfold insert_at. rewrite <- (firstn_skipn i l) at 3. symmetry. apply Permutation_middle.
Qed.
Lemma insert_at_end i x l : length l <= i -> insert_at i x l = l ++ [x].
Proof. intro H. unfold insert_at. rewrite firstn_all2, skipn_all2 by assumption. reflexivity. Qed.

(** Elements that keep everything but their children. *)
Definition same_but_kids (e e' : elem) : Prop :=
  e_tag e' = e_tag e /\ e_attrs e' = e_attrs e /\ e_text e' = e_text e /\ e_parent e' = e_parent e.
Definition grows (h h' : heap) : Prop :=
  forall n e, nth_error h n = Some e -> exists e', nth_error h' n = Some e' /\ same_but_kids e e'.
Lemma grows_refl h : grows h h.
Proof. intros n e E. exists e. split; [exact E|]. repeat split. Qed.
Lemma grows_trans h1 h2 h3 : grows h1 h2 -> grows h2 h3 -> grows h1 h3.
Proof.
  intros A B n e E. destruct (A n e E) as (e' & E' & (A1 & A2 & A3 & A4)).
  destruct (B n e' E') as (e'' & E'' & (B1 & B2 & B3 & B4)). exists e''. split; [exact E''|]. repeat split; congruence.
Qed.
Lemma grows_length h h' : grows h h' -> length h <= length h'.
Proof.
  intro G. destruct (Nat.le_gt_cases (length h) (length h')) as [|L]; [assumption|exfalso].
  assert (nth_error h (length h') <> None) as N by (now apply nth_error_Some).
  destruct (nth_error h (length h')) as [e|] eqn:E; [|congruence]. destruct (G _ _ E) as (e' & E' & _).
  assert (length h' < length h') by (apply nth_error_Some; congruence). lia.
Qed.
Lemma grows_put h n l : grows h (put_kids h n l).
Proof.
  intros m e E. rewrite nth_put_kids, E. eexists. split; [reflexivity|].
  destruct (Nat.eqb m n); repeat split.
Qed.
Lemma grows_app h x : grows h (h ++ x).
Proof.
  intros n e E. exists e. split; [|repeat split]. rewrite nth_error_app1; [exact E|]. apply nth_error_Some. congruence.
Qed.
Lemma link_grows h h' c v : grows h h' -> c < length h -> link h' c v <-> link h c v.
Proof.
  intros G L. apply nth_error_Some in L. destruct (nth_error h c) as [e|] eqn:E; [|congruence].
  destruct (G c e E) as (e' & E' & (A1 & A2 & _)). unfold link. rewrite E, E'.
  split; intros (x & Ex & H1 & H2); injection Ex as <-; eexists; (split; [reflexivity|]); split; congruence.
Qed.
Lemma is_link_grows h h' c : grows h h' -> c < length h -> is_link h' c <-> is_link h c.
Proof. intros G L. unfold is_link. setoid_rewrite (link_grows h h' c _ G L). tauto. Qed.
Lemma kids_lt h n c : In c (kids h n) -> n < length h.
Proof.
  unfold kids. destruct (nth_error h n) eqn:E; [|intros []]. intros _. apply nth_error_Some. congruence.
Qed.

(** The model's tests and the specification's *)
Lemma alias_link h c v : is_alias h c = true -> path_of h c = Some v -> link h c v.
Proof.
  unfold is_alias, path_of, link. destruct (nth_error h c) as [e|]; [|discriminate]. intros A P. exists e.
  split; [reflexivity|]. split; [|exact P]. now destruct (streq_spec (e_tag e) (lit "alias")).
Qed.
Lemma link_alias h c v : link h c v -> is_alias h c = true /\ path_of h c = Some v.
Proof.
  intros (e & E & A & P). unfold is_alias, path_of. rewrite E. split; [|exact P].
  destruct (streq_spec (e_tag e) (lit "alias")); [reflexivity|contradiction].
Qed.
Lemma alias_nopath h c : is_alias h c = true -> path_of h c = None -> ~ is_link h c.
Proof. intros _ P (v & L). apply link_alias in L as [_ L]. congruence. Qed.
Lemma noalias_nolink h c : is_alias h c = false -> ~ is_link h c.
Proof. intros A (v & L). apply link_alias in L as [L _]. congruence. Qed.

(** ** Paths *)
Lemma matches_spec tag tests e : matches tag tests e = true <->
  e_tag e = tag /\ (forall a v, In (a, v) tests -> dget streq (e_attrs e) a = Some v).
Proof.
  unfold matches. rewrite andb_true_iff, forallb_forall. destruct (streq_spec (e_tag e) tag) as [E|E].
  - split.
    + intros [_ H]. split; [exact E|]. intros a v I. specialize (H _ I). cbn [fst snd] in H.
      destruct (dget streq (e_attrs e) a) as [w|]; [|discriminate]. destruct (streq_spec w v); congruence.
    + intros [_ H]. split; [reflexivity|]. intros [a v] I. cbn [fst snd]. rewrite (H a v I).
      destruct (streq_spec v v); congruence.
  - split; intros [A _]; [discriminate|contradiction].
Qed.
Lemma findall_app h ss : forall a b, findall h ss (a ++ b) = findall h ss a ++ findall h ss b.
Proof. induction ss as [|s ss IH]; intros a b; cbn [findall]; [reflexivity|]. rewrite flat_map_app. apply IH. Qed.
Lemma findall_flat h ss : forall ctx, findall h ss ctx = flat_map (fun n => findall h ss [n]) ctx.
Proof.
  induction ctx as [|n ctx IH]; cbn [flat_map].
  - induction ss as [|s ss IHs]; [reflexivity|exact IHs].
  - change (n :: ctx) with ([n] ++ ctx). rewrite findall_app. now rewrite IH.
Qed.

(** A path finds exactly the elements it reaches. *)
Theorem C65_path : forall h ss n m, In m (findall h ss [n]) <-> reaches h ss n m.
Proof.
  intros h ss. induction ss as [|s ss IH]; intros n m; cbn [findall].
  - split; [intros [<-|[]]; constructor|]. intro R. inversion R; subst. now left.
  - rewrite findall_flat, in_flat_map. cbn [flat_map]. rewrite app_nil_r. split.
    + intros (x & Hx & Hm). apply IH in Hm. destruct s as [|tag tests]; cbn [walk1] in Hx.
      * destruct (nth_error h n) as [e|] eqn:E; [|destruct Hx]. destruct (e_parent e) as [p|] eqn:Ep; [|destruct Hx].
        destruct Hx as [<-|[]]. econstructor; eassumption.
      * apply filter_In in Hx as [H1 H2]. destruct (nth_error h x) as [e|] eqn:E; [|discriminate].
        apply matches_spec in H2 as [H2 H3]. econstructor; eassumption.
    + intro R. inversion R as [|? e p ? ? En Ep Rp|? c e ? ? ? ? Hc Ec Et Ha Rc]; subst.
      * exists p. split; [|now apply IH]. cbn [walk1]. rewrite En, Ep. now left.
      * exists c. split; [|now apply IH]. cbn [walk1]. apply filter_In. split; [assumption|].
        rewrite Ec. apply matches_spec. auto.
Qed.

Section Main.
  Variable steps : pystr -> list step.
  Variable ud : bool.
  Variable h0 : heap.
  Variable rk : id -> nat.
  Hypothesis S0 : sound steps h0 rk.

  Definition L0 := length h0.

  (** The heap on the way *)
  Definition good (h : heap) : Prop :=
    grows h0 h /\ (forall n, n < L0 -> nolink h0 n -> kids h n = kids h0 n) /\
    (forall n c, In c (kids h n) -> c < length h).

  Inductive uc (h : heap) (k : nat) : id -> tree -> Prop :=
  | UC n e ts : nth_error h n = Some e -> (n < L0 -> rk n < k) -> nolink h n ->
      Forall2 (uc h k) (e_kids e) ts -> uc h k n (T (e_tag e) (e_attrs e) (e_text e) ts).

  Fixpoint uc_ind' (h : heap) (k : nat) (P : id -> tree -> Prop)
    (H : forall n e ts, nth_error h n = Some e -> (n < L0 -> rk n < k) -> nolink h n ->
         Forall2 (uc h k) (e_kids e) ts -> Forall2 P (e_kids e) ts -> P n (T (e_tag e) (e_attrs e) (e_text e) ts))
    n t (u : uc h k n t) {struct u} : P n t :=
    match u in uc _ _ n t return P n t with
    | UC _ _ n e ts E R N F =>
        H n e ts E R N F
          ((fix go l ts (f : Forall2 (uc h k) l ts) : Forall2 P l ts :=
              match f with
              | Forall2_nil _ => Forall2_nil _
              | Forall2_cons x y p q => Forall2_cons x y (uc_ind' h k P H x y p) (go _ _ q)
              end) _ _ F)
    end.

  Lemma uc_mono h k k' n t : k <= k' -> uc h k n t -> uc h k' n t.
  Proof.
    intros L. revert n t. apply uc_ind'. intros n e ts E R N _ F. constructor; auto. intro H. specialize (R H). lia.
  Qed.
  Lemma uc_shows h k n t : uc h k n t -> shows h n t.
  Proof. revert n t. apply uc_ind'. intros n e ts E _ _ _ F. now constructor. Qed.
  Lemma uc_linkfree h k n t : uc h k n t -> linkfree h n.
  Proof.
    revert n t. apply uc_ind'. intros n e ts E _ N _ F. constructor; [exact N|]. unfold kids. rewrite E.
    clear E N. intros c Hc. induction F as [|x y l l' Fx _ IH]; [destruct Hc|]. destruct Hc as [<-|Hc]; [|apply (IH Hc)].
    exact Fx.
  Qed.
  (** An element with all below it stays if nothing in it is changed. *)
  Lemma uc_keep h h' k n t : grows h h' -> (forall m c, In c (kids h m) -> c < length h) ->
    (forall m, m < length h -> (m < L0 -> rk m < k) -> nolink h m -> kids h' m = kids h m) ->
    uc h k n t -> uc h' k n t.
  Proof.
    intros G V K. revert n t. apply uc_ind'. intros n e ts E R N _ F.
    destruct (G n e E) as (e' & E' & (A1 & A2 & A3 & _)).
    assert (n < length h) as Ln by (apply nth_error_Some; congruence).
    assert (kids h' n = kids h n) as Kn by (apply K; auto).
    assert (e_kids e' = e_kids e) as Ke by (unfold kids in Kn; rewrite E, E' in Kn; exact Kn).
    rewrite <- A1, <- A2, <- A3. constructor; auto.
    - intros c Hc L. rewrite Kn in Hc. apply (N c Hc). apply (is_link_grows h h'); auto. apply (V _ _ Hc).
    - rewrite Ke. exact F.
  Qed.

  Definition pend (h : heap) (n : id) : Prop := kids h n = kids h0 n.
  Definition done (h : heap) (n : id) : Prop := exists t, uc h (S (rk n)) n t /\ resolved steps h0 n t.
  Definition inv (k : nat) (h : heap) : Prop := forall m, m < L0 -> rk m < k -> pend h m \/ done h m.

  (** What a call on [n] may change *)
  Definition evolves (n : id) (h h' : heap) : Prop :=
    grows h h' /\
    (forall m, m < length h -> m <> n -> nolink h m -> kids h' m = kids h m) /\
    (forall m, m < length h -> L0 <= m -> kids h' m = kids h m) /\
    (forall m, m < L0 -> rk n <= rk m -> m <> n -> kids h' m = kids h m).
  Definition evolves_all (n : id) (h h' : heap) : Prop :=
    evolves n h h' /\ (nolink h n -> kids h' n = kids h n).

  Lemma evolves_refl n h : evolves n h h.
  Proof. split; [apply grows_refl|]. repeat split; auto. Qed.
  Lemma nolink_keep h h' m : grows h h' -> (forall m c, In c (kids h m) -> c < length h) ->
    kids h' m = kids h m -> nolink h m -> nolink h' m.
  Proof.
    intros G V K N c Hc L. rewrite K in Hc. apply (N c Hc). apply (is_link_grows h h'); auto. apply (V _ _ Hc).
  Qed.

  Definition rloop (f : nat) := resolve_loop steps ud (resolve steps ud f) f.
  Lemma resolve_S f h this cache : resolve steps ud (S f) h this cache = rloop f this cache (kids h this) h 0 1 false.
  Proof. reflexivity. Qed.

  (** ** An element without aliases is left alone *)
  Lemma resolve_clean h k n t : uc h k n t ->
    exists F, forall f, F <= f -> forall cache, resolve steps ud f h n cache = Some (Ok (h, false)).
  Proof.
    revert n t. apply uc_ind'. intros n e ts E R N _ F.
    assert (forall c, In c (e_kids e) -> ~ is_link h c) as NL
      by (intros c Hc; apply N; unfold kids; now rewrite E).
    assert (exists F, forall f, F <= f -> forall cache i count, rloop f n cache (e_kids e) h i count false = Some (Ok (h, false))) as (F0 & HF).
    { clear N R E. induction F as [|c t l ts (Fc & Hc) _ IH].
      - exists 0. intros. reflexivity.
      - destruct IH as (Fl & Hl); [intros; apply NL; now right|].
        exists (Nat.max Fc Fl). intros f Lf cache i count. unfold rloop; cbn [resolve_loop].
        destruct (is_alias h c) eqn:A.
        + destruct (path_of h c) as [v|] eqn:P.
          * exfalso. apply (NL c); [now left|]. exists v. now apply alias_link.
          * apply Hl. lia.
        + rewrite Hc by lia. cbn [orb]. apply Hl. lia. }
    exists (S F0). intros [|f] Lf cache; [lia|]. rewrite resolve_S. unfold kids. rewrite E. apply HF. lia.
  Qed.

  (** ** Paths find the same on the way *)
  Lemma walk1_good h s n : good h -> n < L0 -> match s with Up => True | Child _ _ => nolink h0 n end ->
    walk1 h s n = walk1 h0 s n /\ forall m, In m (walk1 h0 s n) -> m < L0.
  Proof.
    intros (G & K & V) L C. destruct s as [|tag tests]; cbn [walk1].
    - assert (nth_error h0 n <> None) as N by (now apply nth_error_Some).
      destruct (nth_error h0 n) as [e|] eqn:E; [|congruence]. destruct (G n e E) as (e' & E' & (_ & _ & _ & A)).
      rewrite E', A. split; [reflexivity|]. destruct (e_parent e) as [p|] eqn:P; [|intros m []].
      intros m [<-|[]]. eapply (s_parent _ _ _ S0); eassumption.
    - rewrite (K n L C). split.
      + apply filter_ext_in. intros c Hc. apply (s_kids _ _ _ S0) in Hc.
        assert (nth_error h0 c <> None) as N by (now apply nth_error_Some).
        destruct (nth_error h0 c) as [e|] eqn:E; [|congruence]. destruct (G c e E) as (e' & E' & (A1 & A2 & _)).
        rewrite E'. unfold matches. now rewrite A1, A2.
      + intros m Hm. apply filter_In in Hm as [Hm _]. apply (s_kids _ _ _ S0 _ _ Hm).
  Qed.
  Lemma findall_good h ss : forall ctx, good h -> (forall n, In n ctx -> n < L0) -> clear_way h0 ss ctx ->
    findall h ss ctx = findall h0 ss ctx /\ forall m, In m (findall h0 ss ctx) -> m < L0.
  Proof.
    induction ss as [|s ss IH]; intros ctx G L C; cbn [findall]; [auto|]. destruct C as [C1 C2].
    assert (forall n, In n ctx -> walk1 h s n = walk1 h0 s n /\ forall m, In m (walk1 h0 s n) -> m < L0) as W.
    { intros n Hn. apply walk1_good; auto. destruct s; auto. }
    assert (flat_map (walk1 h s) ctx = flat_map (walk1 h0 s) ctx) as ->.
    { clear - W. induction ctx as [|n ctx IH]; [reflexivity|]. cbn [flat_map]. rewrite IH by (intros; apply W; now right).
      destruct (W n) as [-> _]; [now left|reflexivity]. }
    apply IH; auto. intros m Hm. apply in_flat_map in Hm as (n & Hn & Hm). now apply (W n).
  Qed.

  (** ** Copying the children of the target *)
  Lemma copy_in_spec this t : this <> t -> forall l h j pos,
    this < length h -> t < length h -> skipn j (kids h t) = l -> (forall c, In c l -> c < length h /\ c <> this) ->
    exists h' news, (forall f, S (length l) <= f -> copy_in f h this t j pos = Some (h', pos + length l)) /\
      (forall m, m < length h -> m <> this -> nth_error h' m = nth_error h m) /\
      (forall e, nth_error h this = Some e -> exists e', nth_error h' this = Some e' /\ same_but_kids e e') /\
      Forall2 (fun c n => length h <= n < length h' /\ exists e, nth_error h c = Some e /\ nth_error h' n = Some (copy_elem e this)) l news /\
      length h' = length h + length l /\
      Permutation (kids h' this) (kids h this ++ news) /\
      (length (kids h this) <= pos -> kids h' this = kids h this ++ news) /\
      (forall n, In n (kids h' this) -> In n (kids h this) \/ length h <= n < length h') /\
      (forall m, length h <= m < length h' -> exists c e, In c l /\ nth_error h c = Some e /\ nth_error h' m = Some (copy_elem e this)).
  Proof.
    intro NT. induction l as [|c l IH]; intros h j pos Lt Lt' Sk V.
    - exists h, []. split.
      { intros [|f] Lf; [cbn in Lf; lia|]. cbn [copy_in]. assert (nth_error (kids h t) j = None) as ->.
        { apply nth_error_None. assert (length (skipn j (kids h t)) = 0) as E by now rewrite Sk. rewrite skipn_length in E. lia. }
        cbn [length]. now rewrite Nat.add_0_r. }
      split; [reflexivity|]. split; [intros e E; exists e; split; [exact E|repeat split]|].
      split; [constructor|]. split; [cbn; lia|]. rewrite app_nil_r. split; [reflexivity|]. split; [auto|]. split; [auto|]. intros m Lm. lia.
    - assert (nth_error (kids h t) j = Some c) as Nj.
      { rewrite <- (firstn_skipn j (kids h t)), Sk. rewrite nth_error_app2.
        - rewrite firstn_length. assert (length (skipn j (kids h t)) = S (length l)) as E by now rewrite Sk.
          rewrite skipn_length in E. replace (j - Nat.min j (length (kids h t))) with 0 by lia. reflexivity.
        - rewrite firstn_length. lia. }
      assert (skipn (S j) (kids h t) = l) as Sk'.
      { pose proof (skipn_skipn 1 j (kids h t)) as SS. cbn [Nat.add] in SS. rewrite <- SS, Sk. reflexivity. }
      destruct (V c (or_introl eq_refl)) as [Lc Nc].
      assert (nth_error h c <> None) as Hc by (now apply nth_error_Some).
      destruct (nth_error h c) as [e|] eqn:Ec; [|congruence]. clear Hc.
      set (h1 := h ++ [copy_elem e this]).
      set (h2 := put_kids h1 this (insert_at pos (length h) (kids h1 this))).
      assert (length h2 = S (length h)) as Len2 by (unfold h2, h1; rewrite put_kids_length, app_length; cbn; lia).
      assert (forall m, m < length h -> nth_error h1 m = nth_error h m) as N1
        by (intros m Lm; unfold h1; now rewrite nth_error_app1).
      assert (forall m, m < length h -> m <> this -> nth_error h2 m = nth_error h m) as N2.
      { intros m Lm Nm. unfold h2. rewrite nth_put_kids, N1 by assumption.
        destruct (nth_error h m); [|reflexivity]. destruct (Nat.eqb_spec m this); congruence. }
      assert (kids h1 this = kids h this) as K1 by (unfold kids; now rewrite N1).
      assert (kids h2 this = insert_at pos (length h) (kids h this)) as K2.
      { unfold h2. rewrite kids_put_same, K1; [reflexivity|]. unfold h1. rewrite app_length. lia. }
      assert (kids h2 t = kids h t) as K2t by (unfold kids; rewrite N2; congruence).
      assert (nth_error h2 (length h) = Some (copy_elem e this)) as Nnew.
      { unfold h2. rewrite nth_put_kids. unfold h1. rewrite nth_error_app2 by lia. rewrite Nat.sub_diag. cbn [nth_error].
        destruct (Nat.eqb_spec (length h) this); [lia|reflexivity]. }
      destruct (IH h2 (S j) (S pos)) as (h' & news & HC & HM & HT & HN & HL & HP & HE & HI & HA).
      + lia.
      + lia.
      + now rewrite K2t.
      + intros d Hd. destruct (V d (or_intror Hd)). split; [lia|assumption].
      + exists h', (length h :: news). split; [|split; [|split; [|split; [|split; [|split; [|split; [|split]]]]]]].
        * intros [|f] Lf; [cbn in Lf; lia|]. cbn [copy_in]. rewrite Nj, Ec. fold h1. fold h2.
          rewrite HC by (cbn [length] in Lf; lia). cbn [length]. do 2 f_equal. lia.
        * intros m Lm Nm. rewrite HM by (try lia; assumption). now apply N2.
        * intros e0 E0. assert (nth_error h2 this = Some (set_kids e0 (insert_at pos (length h) (kids h1 this)))) as E2.
          { unfold h2. rewrite nth_put_kids, N1 by assumption. rewrite E0, Nat.eqb_refl. reflexivity. }
          destruct (HT _ E2) as (e' & E' & SB). exists e'. split; [exact E'|]. exact SB.
        * constructor.
          -- split; [cbn [length] in *; lia|]. exists e. split; [exact Ec|]. rewrite HM by lia. exact Nnew.
          -- clear - HN N2 Len2 V. revert V. induction HN as [|x y l news H _ IHn]; intro V; constructor.
             ++ destruct H as (H1 & ex & H2 & H3). split; [lia|]. exists ex. split; [|exact H3].
                destruct (V x) as [Lx Nx]; [cbn; auto|]. now rewrite <- N2.
             ++ apply IHn. intros d [Hd|Hd]; apply V; cbn; auto.
        * cbn [length]. lia.
        * rewrite HP, K2. rewrite insert_at_perm. change (length h :: news) with ([length h] ++ news). rewrite app_assoc.
          apply Permutation_app_tail. apply Permutation_cons_append.
        * intro Lp. rewrite HE.
          -- rewrite K2, insert_at_end by assumption. now rewrite <- app_assoc.
          -- rewrite K2, insert_at_end by assumption. rewrite app_length. cbn. lia.
        * intros n Hn. destruct (HI n Hn) as [H|H]; [|right; lia]. rewrite K2 in H.
          apply (Permutation_in _ (insert_at_perm _ _ _)) in H as [<-|H]; [|now left]. right. cbn [length] in *. lia.
        * intros m Lm. destruct (Nat.eq_dec m (length h)) as [->|Nm].
          -- exists c, e. split; [now left|]. split; [exact Ec|]. rewrite HM by lia. exact Nnew.
          -- destruct (HA m) as (d & ed & Hd & Ed & Em); [lia|]. exists d, ed. split; [now right|]. split; [|exact Em].
             destruct (V d (or_intror Hd)) as [Ld Nd]. now rewrite <- N2.
  Qed.

  (** ** One call *)
  Definition valid (h : heap) : Prop := forall m c, In c (kids h m) -> c < length h.

  Lemma evolves_trans n h1 h2 h3 : valid h1 -> evolves n h1 h2 -> evolves n h2 h3 -> evolves n h1 h3.
  Proof.
    intros V (A1 & A2 & A3 & A4) (B1 & B2 & B3 & B4). pose proof (grows_length _ _ A1) as L. split; [|split; [|split]].
    - eapply grows_trans; eassumption.
    - intros m Lm Nm N. rewrite B2; [now apply A2|lia|assumption|]. apply (nolink_keep h1); auto.
    - intros m Lm Hm. rewrite B3 by lia. now apply A3.
    - intros m Lm R Nm. rewrite B4 by assumption. now apply A4.
  Qed.
  Lemma kids_put_other h n l m : m <> n -> kids (put_kids h n l) m = kids h m.
  Proof.
    intros N. unfold kids. rewrite nth_put_kids. destruct (nth_error h m); [|reflexivity].
    destruct (Nat.eqb_spec m n); congruence.
  Qed.
  Lemma evolves_others n h h' : n < L0 -> grows h h' -> (forall m, m < length h -> m <> n -> kids h' m = kids h m) ->
    L0 <= length h -> evolves n h h'.
  Proof.
    intros Ln G K LL. split; [exact G|]. split; [auto|]. split.
    - intros m Lm Hm. apply K; lia.
    - intros m Lm _ Nm. apply K; lia.
  Qed.
  Lemma evolves_sub m n h h' : m < L0 -> rk m < rk n -> evolves_all m h h' -> evolves n h h'.
  Proof.
    intros Lm R ((A1 & A2 & A3 & A4) & A5). split; [exact A1|]. split; [|split; [exact A3|]].
    - intros x Lx _ N. destruct (Nat.eq_dec x m) as [->|]; auto.
    - intros x Lx Rx _. apply A4; [assumption|lia|]. intros ->. lia.
  Qed.
  Definition okid (h : heap) (n d : id) (t : tree) : Prop := uc h (rk n) d t /\ ~ is_link h d.
  Lemma uc_lt h k n t : uc h k n t -> n < length h.
  Proof. intro U. destruct U. apply nth_error_Some. congruence. Qed.
  Lemma okid_ev n h h' d t : n < L0 -> valid h -> evolves n h h' -> okid h n d t -> okid h' n d t.
  Proof.
    intros Ln V (A1 & A2 & _ & _) [U N]. split.
    - revert U. apply uc_keep; auto. intros m Lm R Nm. apply A2; auto. intros ->. specialize (R Ln). lia.
    - intro L. apply N. apply (is_link_grows h h'); auto. eapply uc_lt; eassumption.
  Qed.
  Lemma okids_ev n h h' D ts : n < L0 -> valid h -> evolves n h h' -> Forall2 (okid h n) D ts -> Forall2 (okid h' n) D ts.
  Proof. intros Ln V E F. induction F; constructor; auto. now apply (okid_ev n h h'). Qed.
  Lemma inv_same n h h' : n < L0 -> valid h -> evolves n h h' -> (forall m, m < L0 -> m <> n -> kids h' m = kids h m) ->
    inv (rk n) h -> inv (rk n) h'.
  Proof.
    intros Ln V (A1 & A2 & _ & _) K I m Lm Rm. assert (m <> n) as N by (intros ->; lia).
    destruct (I m Lm Rm) as [P|(t & U & R)]; [left|right].
    - unfold pend in *. rewrite K by assumption. exact P.
    - exists t. split; [|exact R]. revert U. apply uc_keep; auto. intros x Lx Rx Nx. apply A2; auto.
      intros ->. specialize (Rx Ln). lia.
  Qed.
  Lemma inv_call m k h h' : m < L0 -> valid h -> evolves_all m h h' -> inv (S (rk m)) h' -> inv k h -> inv k h'.
  Proof.
    intros Lm V ((A1 & A2 & A3 & A4) & A5) I' I x Lx Rx. destruct (Nat.le_gt_cases (rk x) (rk m)) as [Le|Gt].
    - apply I'; [assumption|lia].
    - assert (x <> m) as N by (intros ->; lia). destruct (I x Lx Rx) as [P|(t & U & R)]; [left|right].
      + unfold pend in *. rewrite A4 by (try assumption; lia). exact P.
      + exists t. split; [|exact R]. revert U. apply uc_keep; auto. intros y Ly _ Ny.
        destruct (Nat.eq_dec y m) as [->|]; auto.
  Qed.

  Definition call_ok (m : id) : Prop := forall h cache,
    good h -> inv (S (rk m)) h -> (forall x, In x cache -> rk m <= rk x) ->
    exists F h' b, (forall f, F <= f -> resolve steps ud f h m cache = Some (Ok (h', b))) /\
      good h' /\ inv (S (rk m)) h' /\ evolves_all m h h' /\ done h' m.

  Lemma good_L0 h : good h -> L0 <= length h.
  Proof. intros (G & _). now apply grows_length. Qed.
  Lemma link_good h c v : good h -> c < L0 -> link h c v <-> link h0 c v.
  Proof. intros (G & _) L. now apply link_grows. Qed.
  Lemma is_link_good h c : good h -> c < L0 -> is_link h c <-> is_link h0 c.
  Proof. intros (G & _) L. now apply is_link_grows. Qed.

  Lemma Forall2_perm {A B} (R : A -> B -> Prop) l l' ts : Permutation l l' -> Forall2 R l' ts ->
    exists ts', Forall2 R l ts' /\ Permutation ts' ts.
  Proof.
    intros P. revert ts. induction P; intros ts F.
    - inversion F; subst. exists []. split; constructor.
    - inversion F as [|? y ? ys Rx Fs]; subst. destruct (IHP _ Fs) as (ts' & F' & P'). exists (y :: ts'). split; constructor; auto.
    - inversion F as [|? y1 ? ys Rx Fs]; subst. inversion Fs as [|? y2 ? zs Ry Gs]; subst.
      exists (y2 :: y1 :: zs). split; [repeat constructor; auto|constructor].
    - destruct (IHP2 _ F) as (t2 & F2 & Q2). destruct (IHP1 _ F2) as (t1 & F1 & Q1).
      exists t1. split; [exact F1|]. eapply Permutation_trans; eassumption.
  Qed.
  Lemma Forall2_in {A B} (R : A -> B -> Prop) l ts x : Forall2 R l ts -> In x l -> exists y, In y ts /\ R x y.
  Proof.
    intro F. induction F as [|a b l ts Ra F IH]; intros []; [subst; exists b; split; [now left|assumption]|].
    destruct (IH H) as (y & Hy & Ry). exists y. split; [now right|assumption].
  Qed.

  Section Loop.
    Variable n : id.
    Variable e0 : elem.
    Variable cache : list id.
    Hypothesis En : nth_error h0 n = Some e0.
    Hypothesis IH : forall m, m < L0 -> rk m < rk n -> call_ok m.
    Hypothesis Hcache : forall x, In x cache -> rk n <= rk x.

    Lemma Ln : n < L0.
    Proof. apply nth_error_Some. unfold L0. congruence. Qed.
    Lemma Kn : kids h0 n = e_kids e0.
    Proof. unfold kids. now rewrite En. Qed.

    Definition state (hs : heap) (pre l : list id) (ps : list (list tree)) (D : list id) (h : heap) (count : nat) : Prop :=
      good h /\ inv (rk n) h /\ evolves n hs h /\ Permutation (kids h n) (D ++ l) /\
      Forall2 (okid h n) D (concat ps) /\ Forall2 (piece steps h0 n) pre ps /\
      ((forall d, In d pre -> ~ is_link h0 d) -> kids h n = pre ++ l /\ D = pre /\ count = 1) /\
      (alias_last h0 n -> l = [] -> kids h n = D).

    Lemma rloop_ok hs (Vhs : valid hs) : forall l pre ps D h count has,
      e_kids e0 = pre ++ l -> state hs pre l ps D h count ->
      exists F h' b ps' D' count', (forall f, F <= f -> rloop f n cache l h (length pre) count has = Some (Ok (h', b))) /\
        state hs (pre ++ l) [] ps' D' h' count'.
    Proof.
      pose proof Ln as Ln.
      induction l as [|c l IHl]; intros pre ps D h count has EK S.
      - exists 0, h, (has && ud)%bool, ps, D, count. split; [intros; reflexivity|]. now rewrite app_nil_r.
      - assert (In c (kids h0 n)) as Hc by (rewrite Kn, EK, in_app_iff; right; now left).
        assert (c < L0) as Lc by (apply (s_kids _ _ _ S0 _ _ Hc)).
        assert (forall pre', length (pre ++ [pre']) = Datatypes.S (length pre)) as Lpre by (intro; rewrite app_length; cbn; lia).
        assert (e_kids e0 = (pre ++ [c]) ++ l) as EK' by (now rewrite <- app_assoc).
        destruct S as (G & I & Ev & Pm & Fk & Fp & Ex & Al).
        assert (valid h) as Vh by exact (proj2 (proj2 G)).
        destruct (is_alias h c) eqn:A; [destruct (path_of h c) as [v|] eqn:Pc|].
        + (* an alias with a path *)
          assert (link h0 c v) as Lk by (apply (link_good h c v G Lc); now apply alias_link).
          assert (forall m, m < L0 -> nolink h0 m -> m <> n) as Nln
            by (intros m _ Nl ->; apply (Nl c Hc); now exists v).
          destruct (remove_first_spec c (kids h n)) as (ra & rb & Er & Ek & Nra).
          { apply (Permutation_in _ (Permutation_sym Pm)). rewrite in_app_iff. right. now left. }
          set (r := ra ++ rb) in *.
          assert (Permutation r (D ++ l)) as Pr.
          { apply (Permutation_cons_inv (a := c)). rewrite Ek in Pm.
            apply Permutation_trans with (ra ++ c :: rb); [apply Permutation_middle|].
            apply Permutation_trans with (D ++ c :: l); [exact Pm|]. symmetry. apply Permutation_middle. }
          assert (forall x, In x r -> In x (kids h n)) as Sr.
          { intros x Hx. rewrite Ek. unfold r in Hx. apply in_app_iff in Hx. apply in_app_iff. cbn [In]. tauto. }
          set (h2 := put_kids h n r).
          pose proof (good_L0 h G) as LL.
          assert (n < length h) as Lnh by lia.
          assert (kids h2 n = r) as K2n by (apply kids_put_same; exact Lnh).
          assert (forall m, m <> n -> kids h2 m = kids h m) as K2 by (intros m Nm; now apply kids_put_other).
          assert (length h2 = length h) as Len2 by apply put_kids_length.
          assert (good h2) as G2.
          { destruct G as (Ga & Gb & Gc). split; [eapply grows_trans; [exact Ga|apply grows_put]|]. split.
            - intros m Lm Nl. rewrite K2 by (now apply Nln). now apply Gb.
            - intros m d Hd. rewrite Len2. destruct (Nat.eq_dec m n) as [->|Nm].
              + rewrite K2n in Hd. apply (Gc n). now apply Sr.
              + rewrite K2 in Hd by assumption. now apply (Gc m). }
          assert (evolves n h h2) as Ev2.
          { apply evolves_others; [exact Ln|apply grows_put| |exact LL]. intros m _ Nm. now apply K2. }
          assert (inv (rk n) h2) as I2 by (apply (inv_same n h h2); auto).
          assert (Forall2 (okid h2 n) D (concat ps)) as Fk2 by (apply (okids_ev n h h2); auto).
          assert (evolves n hs h2) as Evs2 by (apply (evolves_trans n hs h h2); auto).
          pose proof (s_clear _ _ _ S0 n c v Hc Lk) as Cl.
          destruct (findall_good h2 (steps v) [n] G2) as [Fe Fl]; [intros x [<-|[]]; exact Ln|exact Cl|].
          destruct (findall h0 (steps v) [n]) as [|t ms] eqn:Ef.
          * (* no target *)
            destruct (IHl (pre ++ [c]) (ps ++ [[]]) D h2 count has EK') as (F & h' & b & ps' & D' & count' & HF & HS).
            { split; [exact G2|]. split; [exact I2|]. split; [exact Evs2|]. split; [rewrite K2n; exact Pr|].
              split; [rewrite concat_app; cbn [concat]; rewrite !app_nil_r; exact Fk2|].
              split; [apply Forall2_app; [exact Fp|]; constructor; [|constructor]; now apply PieceNone with v|].
              split.
              - intro Nl. exfalso. apply (Nl c); [rewrite in_app_iff; right; now left|now exists v].
              - intros (own & c' & Eo & No) ->. rewrite K2n. rewrite Kn, EK in Eo. apply app_inj_tail in Eo as [-> ->].
                destruct (Ex No) as (Ek0 & -> & _).
                assert (Some r = Some own) as E; [|congruence].
                rewrite <- Er, Ek0. clear - No Lk Nra Ek Ek0.
                assert (~ In c' own) as Nc by (intro Hc'; apply (No c' Hc'); now exists v).
                clear - Nc. induction own as [|x own IHo]; cbn [remove_first app]; [now rewrite Nat.eqb_refl|].
                destruct (Nat.eqb_spec x c') as [->|_]; [exfalso; apply Nc; now left|].
                rewrite IHo; [reflexivity|]. intro Hx. apply Nc. now right. }
            exists F, h', b, ps', D', count'. rewrite <- app_assoc in HS. split; [|exact HS].
            intros f Lf. unfold rloop; cbn [resolve_loop]. rewrite A, Pc, Er. cbn zeta. fold h2. rewrite Fe. rewrite <- (Lpre c). now apply HF.
          * (* a target *)
            assert (t < L0) as Lt by (apply Fl; now left).
            assert (rk t < rk n) as Rt by (eapply (s_link _ _ _ S0 n c v); eassumption).
            assert (t <> n) as Ntn by (intros ->; lia).
            destruct (IH t Lt Rt h2 (t :: cache) G2) as (F1 & h3 & b3 & HF1 & G3 & I3 & E3 & (tt & Ut & Rt')).
            { intros m Lm Rm. apply I2; [exact Lm|lia]. }
            { intros x [<-|Hx]; [lia|]. specialize (Hcache x Hx). lia. }
            assert (valid h2) as Vh2 by exact (proj2 (proj2 G2)). assert (valid h3) as Vh3 by exact (proj2 (proj2 G3)).
            pose proof (good_L0 h3 G3) as LL3.
            assert (kids h3 n = r) as K3n.
            { destruct E3 as ((_ & _ & _ & A4) & _). rewrite A4; [exact K2n|exact Ln|lia|]. intros ->. lia. }
            assert (evolves n h2 h3) as Ev3 by (now apply (evolves_sub t)).
            assert (inv (rk n) h3) as In3 by (now apply (inv_call t (rk n) h2 h3)).
            inversion Ut as [? et tts Et _ Nlt Ft]; subst.
            assert (kids h3 t = e_kids et) as Kt by (unfold kids; now rewrite Et).
            assert (forall d, In d (e_kids et) -> d < length h3 /\ d <> n) as Vt.
            { intros d Hd. split; [apply (Vh3 t); now rewrite Kt|]. intros ->.
              destruct (Forall2_in _ _ _ _ Ft Hd) as (y & _ & Uy). inversion Uy as [? ey ? Ey Ry _ _]; subst.
              specialize (Ry Ln). lia. }
            destruct (copy_in_spec n t (not_eq_sym Ntn) (e_kids et) h3 0 (length pre + count))
              as (h4 & news & HC & HM & HT & HN & HL & HP & HE & HI & HA).
            { lia. } { lia. } { cbn [skipn]. exact Kt. } { exact Vt. }
            assert (forall m, m < length h3 -> m <> n -> kids h4 m = kids h3 m) as K4
              by (intros m Lm Nm; unfold kids; now rewrite HM).
            assert (grows h3 h4) as Gr4.
            { intros m e E. destruct (Nat.eq_dec m n) as [->|Nm]; [now apply HT|].
              exists e. split; [|repeat split]. rewrite HM; [exact E| |exact Nm]. apply nth_error_Some. congruence. }
            assert (evolves n h3 h4) as Ev4 by (apply evolves_others; auto).
            assert (Forall2 (fun d t' => uc h4 (rk n) d t') (e_kids et) tts) as Ft4.
            { clear - Ft Gr4 Vh3 K4 Rt Ln. induction Ft as [|x y xs ys Ux _ IHf]; constructor; [|exact IHf].
              apply (uc_keep h3 h4); auto.
              - intros m Lm R _. apply K4; [exact Lm|]. intros ->. specialize (R Ln). lia.
              - apply (uc_mono h3 (Datatypes.S (rk t))); [lia|exact Ux]. }
            assert (Forall2 (okid h4 n) news tts) as Fn.
            { assert (forall d, In d (e_kids et) -> ~ is_link h3 d) as Nd by (intros d Hd; apply Nlt; now rewrite Kt).
              clear - HN Ft4 Nd LL3 Gr4 Vh3 Vt HM. revert tts Ft4. induction HN as [|d x ds xs (Hx & e & Ed & Ex) _ IHn]; intros tts F;
                inversion F as [|? y ? ys Uy Fy]; subst; constructor.
              - inversion Uy as [? e4 ts4 E4 R4 N4 F4]; subst.
                assert (e4 = e) as ->.
                { destruct (Vt d (or_introl eq_refl)) as [Ld Nd']. rewrite HM in E4 by assumption. congruence. }
                change (T (e_tag e) (e_attrs e) (e_text e) ts4)
                  with (T (e_tag (copy_elem e n)) (e_attrs (copy_elem e n)) (e_text (copy_elem e n)) ts4).
                split.
                + constructor; [exact Ex|unfold L0 in *; lia| |exact F4].
                  intros z Hz. apply N4. unfold kids in *. rewrite E4. rewrite Ex in Hz. exact Hz.
                + intros (w & ex & Ex' & T1 & T2). rewrite Ex in Ex'. injection Ex' as <-.
                  apply (Nd d (or_introl eq_refl)). exists w, e. auto.
              - apply IHn; auto.
                + intros z Hz. apply Vt. now right.
                + intros z Hz. apply Nd. now right. }
            assert (good h4) as G4.
            { destruct G3 as (Ga & Gb & Gc). split; [eapply grows_trans; eassumption|]. split.
              - intros m Lm Nl. rewrite K4; [now apply Gb|lia|]. now apply Nln.
              - intros m d Hd. destruct (Nat.eq_dec m n) as [->|Nm].
                + destruct (HI d Hd) as [H|H]; [|lia]. specialize (Gc _ _ H). lia.
                + pose proof (kids_lt _ _ _ Hd) as Lm. destruct (Nat.lt_ge_cases m (length h3)) as [Lm3|Ge].
                  * rewrite K4 in Hd by assumption. specialize (Gc _ _ Hd). lia.
                  * destruct (HA m (conj Ge Lm)) as (c0 & e & Hc0 & E3' & E4').
                    unfold kids in Hd. rewrite E4' in Hd. cbn in Hd.
                    assert (In d (kids h3 c0)) as Hd' by (unfold kids; now rewrite E3').
                    specialize (Gc _ _ Hd'). lia. }
            assert (inv (rk n) h4) as I4.
            { apply (inv_same n h3 h4); auto. intros m Lm Nm. apply K4; [lia|exact Nm]. }
            assert (Forall2 (okid h4 n) D (concat ps)) as Fk4
              by (apply (okids_ev n h3 h4); auto; apply (okids_ev n h2 h3); auto).
            destruct (IHl (pre ++ [c]) (ps ++ [tts]) (D ++ news) h4 (count + length (e_kids et)) true EK')
              as (F & h' & b & ps' & D' & count' & HF & HS).
            { split; [exact G4|]. split; [exact I4|].
              split; [apply (evolves_trans n hs h2 h4); auto; apply (evolves_trans n h2 h3 h4); auto|].
              split.
              { rewrite HP, K3n, Pr. rewrite <- !app_assoc. apply Permutation_app_head. apply Permutation_app_comm. }
              split; [rewrite concat_app; cbn [concat]; rewrite app_nil_r; now apply Forall2_app|].
              split.
              { apply Forall2_app; [exact Fp|]. constructor; [|constructor].
                change tts with (t_kids (T (e_tag et) (e_attrs et) (e_text et) tts)).
                now apply PieceLink with v t ms. }
              split.
              - intro Nl. exfalso. apply (Nl c); [rewrite in_app_iff; right; now left|now exists v].
              - intros (own & c' & Eo & No) ->. rewrite Kn, EK in Eo. apply app_inj_tail in Eo as [-> ->].
                destruct (Ex No) as (Ek0 & -> & ->).
                assert (Some r = Some own) as E.
                { rewrite <- Er, Ek0. assert (~ In c' own) as Nc by (intro Hc'; apply (No c' Hc'); now exists v).
                  clear - Nc. induction own as [|x own IHo]; cbn [remove_first app]; [now rewrite Nat.eqb_refl|].
                  destruct (Nat.eqb_spec x c') as [->|_]; [exfalso; apply Nc; now left|].
                  rewrite IHo; [reflexivity|]. intro Hx. apply Nc. now right. }
                injection E as E. rewrite HE; rewrite K3n, E; [reflexivity|lia]. }
            exists (Nat.max (Nat.max F F1) (Datatypes.S (length (e_kids et)))), h', b, ps', D', count'.
            rewrite <- app_assoc in HS. split; [|exact HS].
            intros f Lf. unfold rloop; cbn [resolve_loop]. rewrite A, Pc, Er. cbn zeta. fold h2. rewrite Fe.
            assert (existsb (Nat.eqb t) cache = false) as ->.
            { destruct (existsb (Nat.eqb t) cache) eqn:X; [|reflexivity]. apply existsb_exists in X as (x & Hx & X).
              apply Nat.eqb_eq in X. subst x. specialize (Hcache t Hx). lia. }
            rewrite HF1 by lia. rewrite HC by lia.
            replace (length pre + count + length (e_kids et) - length pre) with (count + length (e_kids et)) by lia.
            rewrite <- (Lpre c). apply HF. lia.
        + (* an alias without a path *)
          assert (~ is_link h0 c) as Nl by (rewrite <- (is_link_good h c G Lc); now apply alias_nopath).
          assert (nth_error h0 c <> None) as Hn by (now apply nth_error_Some).
          destruct (nth_error h0 c) as [ec|] eqn:Ec; [|congruence]. clear Hn.
          destruct ((proj1 G) c ec Ec) as (ec' & Ec' & (T1 & T2 & T3 & _)).
          assert (e_tag ec = lit "alias") as Ta.
          { unfold is_alias in A. rewrite Ec' in A. rewrite <- T1. now destruct (streq_spec (e_tag ec') (lit "alias")). }
          pose proof (s_alias _ _ _ S0 c ec Ec Ta) as Kc.
          assert (kids h0 c = []) as Kc0 by (unfold kids; now rewrite Ec).
          assert (e_kids ec' = []) as Kc'.
          { assert (kids h c = kids h0 c) as K by (apply (proj1 (proj2 G)); [exact Lc|]; intros d Hd; rewrite Kc0 in Hd; destruct Hd).
            unfold kids in K. rewrite Ec, Ec' in K. congruence. }
          destruct (IHl (pre ++ [c]) (ps ++ [[T (e_tag ec) (e_attrs ec) (e_text ec) []]]) (D ++ [c]) h count has EK')
            as (F & h' & b & ps' & D' & count' & HF & HS).
          { split; [exact G|]. split; [exact I|]. split; [exact Ev|]. split; [rewrite <- app_assoc; exact Pm|].
            split.
            { rewrite concat_app. apply Forall2_app; [exact Fk|]. constructor; [|constructor].
              split.
              - rewrite <- T1, <- T2, <- T3. constructor; [exact Ec'| | |rewrite Kc'; constructor].
                + intros _. apply (s_down _ _ _ S0 n c Hc Nl).
                + intros d Hd. unfold kids in Hd. rewrite Ec', Kc' in Hd. destruct Hd.
              - now apply alias_nopath. }
            split.
            { apply Forall2_app; [exact Fp|]. constructor; [|constructor]. apply PieceOwn; [exact Nl|].
              apply Resolved with (ps := []); [exact Ec|rewrite Kc; constructor|constructor|reflexivity]. }
            split.
            - intro Np. destruct Ex as (E1 & E2 & E3); [intros d Hd; apply Np; rewrite in_app_iff; now left|].
              rewrite <- app_assoc, E2. auto.
            - intros (own & c' & Eo & No) ->. rewrite Kn, EK in Eo. apply app_inj_tail in Eo as [-> ->].
              destruct (Ex No) as (Ek0 & -> & _). exact Ek0. }
          exists F, h', b, ps', D', count'. rewrite <- app_assoc in HS. split; [|exact HS].
          intros f Lf. unfold rloop; cbn [resolve_loop]. rewrite A, Pc. rewrite <- (Lpre c). now apply HF.
        + (* an element *)
          assert (~ is_link h0 c) as Nl by (rewrite <- (is_link_good h c G Lc); now apply noalias_nolink).
          assert (rk c < rk n) as Rc by (apply (s_down _ _ _ S0 n c Hc Nl)).
          destruct (IH c Lc Rc h [] G) as (F1 & h2 & b2 & HF1 & G2 & I2 & E2 & (t & Ut & Rt)).
          { intros m Lm Rm. apply I; [exact Lm|lia]. } { intros x []. }
          assert (evolves n h h2) as Ev2 by (now apply (evolves_sub c)).
          assert (kids h2 n = kids h n) as K2n.
          { destruct E2 as ((_ & _ & _ & A4) & _). rewrite A4; [reflexivity|exact Ln|lia|]. intros ->. lia. }
          assert (inv (rk n) h2) as In2 by (now apply (inv_call c (rk n) h h2)).
          destruct (IHl (pre ++ [c]) (ps ++ [[t]]) (D ++ [c]) h2 count (has || b2)%bool EK')
            as (F & h' & b & ps' & D' & count' & HF & HS).
          { split; [exact G2|]. split; [exact In2|]. split; [apply (evolves_trans n hs h h2); auto|].
            split; [rewrite K2n, <- app_assoc; exact Pm|].
            split.
            { rewrite concat_app. apply Forall2_app; [now apply (okids_ev n h h2)|]. constructor; [|constructor].
              split; [apply (uc_mono h2 (Datatypes.S (rk c))); [lia|exact Ut]|].
              intro L. apply Nl. now apply (is_link_good h2 c G2 Lc). }
            split.
            { apply Forall2_app; [exact Fp|]. constructor; [|constructor]. now apply PieceOwn. }
            split.
            - intro Np. destruct Ex as (X1 & X2 & X3); [intros d Hd; apply Np; rewrite in_app_iff; now left|].
              rewrite <- app_assoc, K2n, X2. auto.
            - intros (own & c' & Eo & No) ->. rewrite Kn, EK in Eo. apply app_inj_tail in Eo as [-> ->].
              destruct (Ex No) as (Ek0 & -> & _). rewrite K2n. exact Ek0. }
          exists (Nat.max F F1), h', b, ps', D', count'. rewrite <- app_assoc in HS. split; [|exact HS].
          intros f Lf. unfold rloop; cbn [resolve_loop]. rewrite A, HF1 by lia. rewrite <- (Lpre c). apply HF. lia.
    Qed.
  End Loop.

  Lemma call_all : forall k m, rk m < k -> m < L0 -> call_ok m.
  Proof.
    induction k as [|k IHk]; intros n Rn Ln h cache G I Hc; [lia|].
    destruct (I n Ln) as [P|(t & U & R)]; [lia| |].
    - assert (nth_error h0 n <> None) as Hn by (now apply nth_error_Some).
      destruct (nth_error h0 n) as [e0|] eqn:En; [|congruence]. clear Hn.
      assert (kids h n = e_kids e0) as Kh by (rewrite P; unfold kids; now rewrite En).
      assert (valid h) as Vh by exact (proj2 (proj2 G)).
      destruct (rloop_ok n e0 cache En) with (hs := h) (l := e_kids e0) (pre := @nil id) (ps := @nil (list tree))
        (D := @nil id) (h := h) (count := 1) (has := false) as (F & h' & b & ps & D & count' & HF & HS).
      + intros m Lm Rm. apply IHk; [lia|exact Lm].
      + exact Hc.
      + exact Vh.
      + reflexivity.
      + split; [exact G|]. split; [intros m Lm Rm; apply I; [exact Lm|lia]|]. split; [apply evolves_refl|].
        split; [rewrite Kh; reflexivity|]. split; [constructor|]. split; [constructor|]. split; [auto|].
        intros _ K. rewrite Kh. exact K.
      + cbn [app] in HS. destruct HS as (G' & I' & Ev & Pm & Fk & Fp & Ex & Al). rewrite app_nil_r in *.
        destruct ((proj1 G') n e0 En) as (e' & E' & (T1 & T2 & T3 & _)).
        assert (kids h' n = e_kids e') as K' by (unfold kids; now rewrite E').
        assert (nolink h0 n -> kids h' n = e_kids e0 /\ D = e_kids e0) as Nl.
        { intro N. destruct Ex as (X1 & X2 & _); [|auto]. intros d Hd. apply N. unfold kids. now rewrite En. }
        assert (exists ts, Forall2 (okid h' n) (kids h' n) ts /\ Permutation ts (concat ps) /\
                  (nolink h0 n \/ alias_last h0 n -> ts = concat ps)) as (ts & Ft & Pt & Et).
        { destruct (list_eq_dec Nat.eq_dec (kids h' n) D) as [->|Ne].
          - exists (concat ps). repeat split; auto.
          - destruct (Forall2_perm _ _ _ _ Pm Fk) as (ts & F1 & P1). exists ts. split; [exact F1|]. split; [exact P1|].
            intros [N|A]; exfalso; apply Ne; [destruct (Nl N); congruence|now apply Al]. }
        assert (nolink h' n) as N'.
        { intros d Hd. destruct (Forall2_in _ _ _ _ Ft Hd) as (y & _ & [_ Ny]). exact Ny. }
        assert (done h' n) as Dn.
        { exists (T (e_tag e0) (e_attrs e0) (e_text e0) ts). split.
          - rewrite <- T1, <- T2, <- T3. constructor; [exact E'|lia|exact N'|]. rewrite <- K'.
            clear - Ft. induction Ft as [|x y xs ys [U _] _ IH]; constructor; [|exact IH]. apply (uc_mono h' (rk n)); [lia|exact U].
          - apply Resolved with ps; assumption. }
        assert (evolves_all n h h') as Ev'.
        { split; [exact Ev|]. intro N. destruct Nl as [X _]; [|congruence].
          intros d Hd L. apply (N d); [now rewrite P|]. apply (is_link_good h d G); [|exact L]. apply (s_kids _ _ _ S0 _ _ Hd). }
        exists (S F), h', b. split; [|split; [exact G'|split; [|split; [exact Ev'|exact Dn]]]].
        * intros [|f] Lf; [lia|]. rewrite resolve_S, Kh. apply HF. lia.
        * intros m Lm Rm. destruct (Nat.eq_dec m n) as [->|Nm]; [now right|].
          destruct (Nat.lt_ge_cases (rk m) (rk n)) as [Lt|Ge]; [now apply I'|].
          destruct Ev as (A1 & A2 & A3 & A4). destruct (I m Lm Rm) as [Pd|(t & U & R)]; [left|right].
          -- unfold pend in *. rewrite A4 by assumption. exact Pd.
          -- exists t. split; [|exact R]. revert U. apply uc_keep; auto. intros y Ly _ Ny.
             destruct (Nat.eq_dec y n) as [->|]; [now apply Ev'|auto].
    - destruct (resolve_clean h _ n t U) as (F & HF). exists F, h, false. split; [intros; now apply HF|].
      split; [exact G|]. split; [exact I|]. split; [split; [apply evolves_refl|auto]|]. exists t. auto.
  Qed.
End Main.

(** More fuel does not change a result. *)
Lemma copy_in_mono : forall f h this t j pos r, copy_in f h this t j pos = Some r -> copy_in (S f) h this t j pos = Some r.
Proof.
  induction f as [|f IH]; intros h this t j pos r H; [discriminate|].
  cbn [copy_in] in H. remember (S f) as g. cbn [copy_in]. destruct (nth_error (kids h t) j) as [c|]; [|exact H].
  destruct (nth_error h c); [|discriminate]. subst g. now apply IH.
Qed.
Lemma resolve_mono1 steps ud : forall f h this cache r,
  resolve steps ud f h this cache = Some r -> resolve steps ud (S f) h this cache = Some r.
Proof.
  induction f as [|f IH]; intros h this cache r; [discriminate|]. rewrite !resolve_S.
  generalize (kids h this) as l. intro l. generalize 0, 1, false. revert h r.
  induction l as [|c l IHl]; intros h r i count has; unfold rloop; cbn [resolve_loop]; [auto|].
  destruct (is_alias h c).
  - destruct (path_of h c) as [v|]; [|apply IHl]. destruct (remove_first c (kids h this)) as [k|]; [|auto].
    cbn zeta. destruct (findall _ (steps v) [this]) as [|t ms]; [apply IHl|]. destruct (existsb (Nat.eqb t) cache); [auto|].
    destruct (resolve steps ud f _ t (t :: cache)) as [[[h2 b2]|x]|] eqn:E; [..|discriminate]; rewrite (IH _ _ _ _ E); [|auto].
    destruct (copy_in f h2 this t 0 (i + count)) as [[h3 pos]|] eqn:C; [|discriminate]. rewrite (copy_in_mono _ _ _ _ _ _ _ C).
    apply IHl.
  - destruct (resolve steps ud f h c []) as [[[h2 b2]|x]|] eqn:E; [..|discriminate]; rewrite (IH _ _ _ _ E); [|auto].
    apply IHl.
Qed.
Lemma resolve_mono steps ud f f' h this cache r : f <= f' ->
  resolve steps ud f h this cache = Some r -> resolve steps ud f' h this cache = Some r.
Proof. induction 1 as [|f' _ IH]; [auto|]. intro H. apply resolve_mono1. auto. Qed.

Lemma run_unique steps ud h rk n (S0 : sound steps h rk) : n < length h ->
  exists F h' b, (forall f, F <= f -> resolve steps ud f h n [] = Some (Ok (h', b))) /\
    (forall f r, resolve steps ud f h n [] = Some r -> r = Ok (h', b)) /\
    good h h' /\ evolves_all h rk n h h' /\ done steps h rk h' n.
Proof.
  intro Ln.
  destruct (call_all steps ud h rk S0 (S (rk n)) n (Nat.lt_succ_diag_r _) Ln h []) as (F & h' & b & HF & G & _ & E & D).
  - split; [apply grows_refl|]. split; [reflexivity|]. apply (s_kids _ _ _ S0).
  - intros m _ _. now left.
  - intros x [].
  - exists F, h', b. repeat split; auto.
    + intros f r H. specialize (HF (Nat.max F f) (Nat.le_max_l _ _)).
      apply (resolve_mono _ _ f (Nat.max F f)) in H; [|lia]. congruence.
    + apply G. + apply (proj1 (proj2 G)). + apply (proj2 (proj2 G)).
    + apply E. + apply E. + apply E. + apply E. + apply E.
Qed.

(** ** Theorems *)
(** In a document without circles resolving ends, however deep the aliases are nested. *)
Theorem C65_ends : forall steps ud h rk n, sound steps h rk -> n < length h ->
  exists fuel r, forall f, fuel <= f -> resolve steps ud f h n [] = Some r.
Proof.
  intros steps ud h rk n S0 Ln. destruct (run_unique steps ud h rk n S0 Ln) as (F & h' & b & HF & _).
  exists F, (Ok (h', b)). exact HF.
Qed.

(** It ends without error: the element then shows what the document means, and no alias with a
    path is left in it. *)
Theorem C65_resolved : forall steps ud h rk n f r, sound steps h rk -> n < length h ->
  resolve steps ud f h n [] = Some r ->
  exists h' b t, r = Ok (h', b) /\ shows h' n t /\ resolved steps h n t /\ linkfree h' n.
Proof.
  intros steps ud h rk n f r S0 Ln Hr. destruct (run_unique steps ud h rk n S0 Ln) as (F & h' & b & _ & HU & _ & _ & (t & U & R)).
  exists h', b, t. split; [now apply (HU f)|]. split; [eapply uc_shows; eassumption|]. split; [exact R|].
  eapply uc_linkfree; eassumption.
Qed.

(** No element loses or changes its tag, attributes or text, and those that have no alias with a
    path among their children keep their children, the same and in the same order. *)
Theorem C65_rest : forall steps ud h rk n f h' b, sound steps h rk -> n < length h ->
  resolve steps ud f h n [] = Some (Ok (h', b)) ->
  forall m e, nth_error h m = Some e -> exists e', nth_error h' m = Some e' /\
    e_tag e' = e_tag e /\ e_attrs e' = e_attrs e /\ e_text e' = e_text e /\ e_parent e' = e_parent e /\
    (nolink h m -> e_kids e' = e_kids e).
Proof.
  intros steps ud h rk n f h' b S0 Ln Hr m e Em.
  destruct (run_unique steps ud h rk n S0 Ln) as (F & h2 & b2 & _ & HU & _ & E & _).
  apply HU in Hr. injection Hr as <- <-.
  destruct ((proj1 (proj1 E)) m e Em) as (e' & E' & (T1 & T2 & T3 & T4)). exists e'. repeat split; auto.
  intro N. assert (m < length h) as Lm by (apply nth_error_Some; congruence).
  assert (kids h' m = kids h m) as K.
  { destruct E as ((_ & A2 & _ & _) & A5). destruct (Nat.eq_dec m n) as [->|]; auto. }
  unfold kids in K. now rewrite Em, E' in K.
Qed.

(** * Examples and findings *)
Definition el (t : string) (a : list (pystr * pystr)) (p : option id) (k : list id) : elem :=
  {| e_tag := lit t; e_attrs := a; e_text := None; e_kids := k; e_parent := p |}.
Definition ex_steps (v : pystr) : list step :=
  if streq v (lit "../../cal[@type='g']/months") then [Up; Up; Child (lit "cal") [(lit "type", lit "g")]; Child (lit "months") []]
  else if streq v (lit "../x") then [Up; Child (lit "x") []]
  else [Up; Child (lit "none") []].
Definition ex_type (s : string) := [(lit "type", lit s)].
Definition ex_path (s : string) := [(lit "path", lit s)].
(** root / cal g / months / month 1, month 2 / abbr; cal h / months / own, alias *)
Definition ex_heap : heap :=
  [ el "root" [] None [1; 2];
    el "cal" (ex_type "g") (Some 0) [3];
    el "cal" (ex_type "h") (Some 0) [4];
    el "months" [] (Some 1) [5; 6];
    el "months" [] (Some 2) [7; 8];
    el "month" (ex_type "1") (Some 3) [];
    el "month" (ex_type "2") (Some 3) [9];
    el "month" (ex_type "1") (Some 4) [];
    el "alias" (ex_path "../../cal[@type='g']/months") (Some 4) [];
    el "abbr" [] (Some 6) [] ].
Definition ex_rk (n : id) : nat := nth n [5; 3; 4; 2; 3; 0; 1; 0; 0; 0] 0.
Definition ex_result : heap :=
  [ el "root" [] None [1; 2];
    el "cal" (ex_type "g") (Some 0) [3];
    el "cal" (ex_type "h") (Some 0) [4];
    el "months" [] (Some 1) [5; 6];
    el "months" [] (Some 2) [7; 10; 11];
    el "month" (ex_type "1") (Some 3) [];
    el "month" (ex_type "2") (Some 3) [9];
    el "month" (ex_type "1") (Some 4) [];
    el "alias" (ex_path "../../cal[@type='g']/months") (Some 4) [];
    el "abbr" [] (Some 6) [];
    el "month" (ex_type "1") (Some 4) [];
    el "month" (ex_type "2") (Some 4) [9] ].
Example C65_ex_resolve : resolve ex_steps true 10 ex_heap 0 [] = Some (Ok (ex_result, true)).
Proof. vm_compute. reflexivity. Qed.
Lemma ex_link c v : link ex_heap c v -> c = 8 /\ v = lit "../../cal[@type='g']/months".
Proof.
  intros (e & E & A & P). destruct (Nat.eq_dec c 8) as [->|N8].
  - injection E as <-. vm_compute in P. split; [reflexivity|]. vm_compute. congruence.
  - exfalso. do 10 (destruct c as [|c]; [first [injection E as <-; vm_compute in A; discriminate A|lia]|]).
    destruct c; discriminate E.
Qed.
Example C65_ex_sound : sound ex_steps ex_heap ex_rk.
Proof.
  assert (forall n c, In c (kids ex_heap n) -> (n, c) = (4, 8) \/ (c < 10 /\ ex_rk c < ex_rk n /\ c <> 8)) as K.
  { intros n c H. unfold kids in H. do 10 (destruct n as [|n]; [cbn in H; unfold ex_rk; cbn; intuition (subst; auto; right; cbn; lia)|]).
    destruct n; destruct H. }
  constructor.
  - intros n c H. apply K in H. cbn [ex_heap length]. destruct H as [H|H]; [injection H as -> ->|]; lia.
  - intros n e p E P. do 10 (destruct n as [|n]; [injection E as <-; cbn in P; try discriminate P; injection P as <-; cbn; lia|]).
    destruct n; discriminate E.
  - intros c e E A. do 10 (destruct c as [|c]; [injection E as <-; try (vm_compute in A; discriminate A); reflexivity|]).
    destruct c; discriminate E.
  - intros n c H N. apply K in H as [H|H]; [|lia]. injection H as -> ->. exfalso. apply N. eexists. eexists.
    split; [reflexivity|]. split; reflexivity.
  - intros n c v m ms H L F. apply ex_link in L as [-> ->]. apply K in H as [H|H]; [|lia]. injection H as ->.
    vm_compute in F. injection F as <- <-. cbn. lia.
  - intros n c v H L. apply ex_link in L as [-> ->]. apply K in H as [H|H]; [|lia]. injection H as ->.
    assert (forall m, m <> 4 -> nolink ex_heap m) as NL.
    { intros m Nm c Hc (v & Lc). apply ex_link in Lc as [-> _]. apply K in Hc as [Hc|Hc]; [congruence|lia]. }
    change (True /\ True /\ (forall n, In n [0] -> nolink ex_heap n) /\ (forall n, In n [1] -> nolink ex_heap n) /\ True).
    repeat split; intros n [<-|[]]; apply NL; discriminate.
Qed.

(** The inherited children come after the next sibling of the alias, neither in its place nor at
    the end. *)
Definition ex_order : heap :=
  [ el "root" [] None [1; 2];
    el "x" [] (Some 0) [3];
    el "y" [] (Some 0) [4; 5; 6];
    el "a" [] (Some 1) [];
    el "alias" (ex_path "../x") (Some 2) [];
    el "b" [] (Some 2) [];
    el "c" [] (Some 2) [] ].
Theorem C65_order_refuted : exists h', resolve ex_steps true 10 ex_order 0 [] = Some (Ok (h', true)) /\
  map (fun n => option_map e_tag (nth_error h' n)) (kids h' 2) = [Some (lit "b"); Some (lit "a"); Some (lit "c")].
Proof. eexists. split; vm_compute; reflexivity. Qed.

(** The document is no longer a tree: what is below an inherited child is shared with the
    original, so that a later change of the one changes the other. *)
Theorem C65_tree_refuted : ~ (forall steps ud h rk n f h' b, sound steps h rk ->
  resolve steps ud f h n [] = Some (Ok (h', b)) ->
  (forall m1 m2 c, In c (kids h m1) -> In c (kids h m2) -> m1 = m2) ->
  forall m1 m2 c, In c (kids h' m1) -> In c (kids h' m2) -> m1 = m2).
Proof.
  intro H. specialize (H ex_steps true ex_heap ex_rk 0 10 ex_result true C65_ex_sound C65_ex_resolve).
  assert (6 = 11) as E; [|discriminate E]. apply (fun X => H X 6 11 9); [|now left|now left].
  intros m1 m2 c. unfold kids.
  do 10 (destruct m1 as [|m1]; [do 10 (destruct m2 as [|m2]; [cbn; intros A B; try reflexivity; exfalso; lia|]);
    destruct m2; intros _ []|]). destruct m1; intros [].
Qed.

(** An element of its own is not preferred to an inherited one with the same tag and attributes:
    both stand there afterwards. *)
Theorem C65_override_refuted : exists h', resolve ex_steps true 10 ex_heap 0 [] = Some (Ok (h', true)) /\
  map (fun n => option_map e_attrs (nth_error h' n)) (kids h' 4) = [Some (ex_type "1"); Some (ex_type "1"); Some (ex_type "2")].
Proof. exists ex_result. split; vm_compute; reflexivity. Qed.

(** Circles. An alias that leads to the element it is in never ends if there is another child:
    the loop inserts into the list it goes over. *)
Lemma copy_in_self this : forall f h j pos, valid h -> this < length h -> j < length (kids h this) ->
  copy_in f h this this j pos = None.
Proof.
  induction f as [|f IH]; intros h j pos V L J; [reflexivity|]. cbn [copy_in].
  destruct (nth_error (kids h this) j) as [c|] eqn:E; [|apply nth_error_None in E; lia].
  assert (c < length h) as Lc by (apply (V this); eapply nth_error_In; eassumption).
  assert (nth_error h c <> None) as N by (now apply nth_error_Some). destruct (nth_error h c) as [e|] eqn:Ec; [|congruence].
  set (h1 := h ++ [copy_elem e this]).
  assert (kids h1 this = kids h this) as K1 by (unfold kids, h1; now rewrite nth_error_app1).
  assert (length h1 = S (length h)) as L1 by (unfold h1; rewrite app_length; cbn; lia).
  apply IH.
  - intros m d Hd. rewrite put_kids_length, L1. destruct (Nat.eq_dec m this) as [->|Nm].
    + rewrite kids_put_same, K1 in Hd by lia. apply (Permutation_in _ (insert_at_perm _ _ _)) in Hd as [<-|Hd]; [lia|].
      specialize (V _ _ Hd). lia.
    + rewrite kids_put_other in Hd by assumption. unfold kids, h1 in Hd.
      destruct (Nat.lt_ge_cases m (length h)) as [Lm|Gm].
      * rewrite nth_error_app1 in Hd by assumption. specialize (V m d Hd). lia.
      * rewrite nth_error_app2 in Hd by assumption. destruct (m - length h) as [|k]; cbn in Hd; [|destruct k; destruct Hd].
        assert (In d (kids h c)) as Hd' by (unfold kids; now rewrite Ec). specialize (V _ _ Hd'). lia.
  - rewrite put_kids_length, L1. lia.
  - rewrite kids_put_same, K1 by lia. rewrite (Permutation_length (insert_at_perm _ _ _)). cbn. lia.
Qed.
Definition ex_self : heap :=
  [ el "root" [] None [1]; el "x" [] (Some 0) [2; 3]; el "alias" (ex_path "../x") (Some 1) []; el "y" [] (Some 1) [] ].
Theorem C65_self_refuted : forall ud f, resolve ex_steps ud f ex_self 0 [] = None.
Proof.
  intros ud f. destruct (Nat.lt_ge_cases f 5) as [L|G].
  - do 5 (destruct f as [|f]; [vm_compute; reflexivity|]). lia.
  - replace f with (S (S (S (S (S (f - 5)))))) by lia. generalize (f - 5). clear. intro f.
    rewrite resolve_S. change (kids ex_self 0) with [1]. unfold rloop; cbn [resolve_loop]. change (is_alias ex_self 1) with false. cbn iota.
    assert (resolve ex_steps ud (S (S (S (S f)))) ex_self 1 [] = None) as ->; [|reflexivity].
    rewrite resolve_S. change (kids ex_self 1) with [2; 3]. unfold rloop; cbn [resolve_loop]. change (is_alias ex_self 2) with true. cbn iota.
    change (path_of ex_self 2) with (Some (lit "../x")). cbn iota.
    change (remove_first 2 (kids ex_self 1)) with (Some [3]). cbn iota zeta.
    change (findall (put_kids ex_self 1 [3]) (ex_steps (lit "../x")) [1]) with [1]. cbn [existsb].
    set (h := put_kids ex_self 1 [3]).
    match goal with |- match ?X with _ => _ end = None => assert (X = Some (Ok (h, false))) as -> end.
    { rewrite resolve_S. change (kids h 1) with [3]. unfold rloop; cbn [resolve_loop]. change (is_alias h 3) with false. cbn iota.
      rewrite resolve_S. change (kids h 3) with (@nil id). unfold rloop; cbn [resolve_loop]. reflexivity. }
    cbn iota. rewrite copy_in_self; [reflexivity| |cbn; lia|cbn; lia].
    intros m c Hc. change (length h) with 4. do 4 (destruct m as [|m]; [cbn in Hc; lia|]). destruct m; destruct Hc.
Qed.

(** Two aliases, the first leading to its own element: the second is resolved in between, and
    then not found. *)
Definition ex_twice : heap :=
  [ el "root" [] None [1]; el "x" [] (Some 0) [2; 3]; el "alias" (ex_path "../x") (Some 1) [];
    el "alias" (ex_path "../y") (Some 1) [] ].
Theorem C65_twice_refuted : resolve ex_steps true 10 ex_twice 0 [] = Some (Raise ValueError).
Proof. vm_compute. reflexivity. Qed.
