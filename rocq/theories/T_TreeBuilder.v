(** C29: the tree builder; C50: what reading a document keeps. *)
From Coq Require Import String.
From Verif Require Import Py PyFacts M_LdmlBase M_TreeBuilder.
Local Open Scope list_scope.

(** * C29. Specification: a document with mixed content and the events that describe it. *)
Inductive item : Type :=
| Data (s : pystr)
| Child (tag : pystr) (attrs : list (pystr * pystr)) (content : list item).

Fixpoint item_events (i : item) : list event :=
  match i with
  | Data s => [EData s]
  | Child t a c => EStart t a :: flat_map item_events c ++ [EEnd t]
  end.
Definition items_events (l : list item) : list event := flat_map item_events l.

(** The tree of a document: adjacent data is joined; it is the text of the element when no
    child precedes it and otherwise the tail of the preceding child. *)
Definition more (o : option pystr) (s : pystr) : option pystr :=
  Some (match o with Some t => t ++ s | None => s end).
Definition more_tail (s : pystr) (n : xnode) : xnode :=
  XNode (xtag n) (xattrs n) (xtext n) (more (xtail n) s) (xkids n).
Definition add_item (tree : item -> xnode) (acc : option pystr * list xnode) (i : item)
  : option pystr * list xnode :=
  match i with
  | Data s => match snd acc with
              | [] => (more (fst acc) s, [])
              | ks => (fst acc, upd_last (more_tail s) ks)
              end
  | _ => (fst acc, snd acc ++ [tree i])
  end.
Fixpoint item_tree (i : item) : xnode :=
  match i with
  | Data _ => XNode [] [] None None []     (* not used *)
  | Child t a c =>
      let '(text, kids) := fold_left (add_item item_tree) c (None, []) in
      XNode t a text None kids
  end.
Definition items_tree (l : list item) : option pystr * list xnode :=
  fold_left (add_item item_tree) l (None, []).

(** ** The builder keeps to the specification *)
Definition is_child (i : item) : bool := match i with Child _ _ _ => true | Data _ => false end.

(** a list of items that is empty or ends with a child *)
Definition settled (l : list item) : Prop :=
  l = [] \/ exists l' t a c, l = l' ++ [Child t a c].

Lemma upd_last_snoc {A} (f : A -> A) l x : upd_last f (l ++ [x]) = l ++ [f x].
Proof.
  induction l as [|y l IH]; [reflexivity|]. cbn [app upd_last].
  destruct (l ++ [x]) eqn:E; [destruct l; discriminate|]. now rewrite IH.
Qed.
Lemma last_opt_snoc {A} (l : list A) x : last_opt (l ++ [x]) = Some x.
Proof. unfold last_opt. now rewrite rev_app_distr. Qed.
Lemma last_opt_nil {A} (l : list A) : last_opt l = None -> l = [].
Proof.
  unfold last_opt. intro H. destruct (rev l) eqn:E; [|discriminate].
  rewrite <- (rev_involutive l), E. reflexivity.
Qed.

Lemma items_tree_snoc l i :
  items_tree (l ++ [i]) = add_item item_tree (items_tree l) i.
Proof. unfold items_tree. now rewrite fold_left_app. Qed.
Lemma items_tree_data_empty ds :
  items_tree (map Data ds)
  = ((match ds with [] => None | _ => Some (concat ds) end), []).
Proof.
  induction ds as [|d ds IH] using rev_ind; [reflexivity|].
  rewrite map_app. cbn [map]. rewrite items_tree_snoc, IH. cbn.
  destruct ds as [|d' ds]; cbn; [now rewrite app_nil_r|].
  unfold more. rewrite concat_app. cbn. now rewrite app_nil_r, app_assoc.
Qed.
Lemma items_tree_data l t a c ds :
  items_tree ((l ++ [Child t a c]) ++ map Data ds)
  = (fst (items_tree l),
     snd (items_tree l)
     ++ [match ds with
         | [] => item_tree (Child t a c)
         | _ => set_tail (item_tree (Child t a c)) (concat ds)
         end]).
Proof.
  assert (xtail (item_tree (Child t a c)) = None) as T.
  { cbn [item_tree]. now destruct (fold_left _ _ _). }
  induction ds as [|d ds IH] using rev_ind.
  - cbn [map]. rewrite app_nil_r. apply items_tree_snoc.
  - rewrite map_app, app_assoc. cbn [map]. rewrite items_tree_snoc, IH.
    unfold add_item. cbn [fst snd].
    destruct (snd (items_tree l) ++ _) as [|k ks] eqn:E; [destruct (snd (items_tree l)); discriminate|].
    rewrite <- E. f_equal. rewrite upd_last_snoc. do 2 f_equal.
    destruct ds as [|d' ds].
    + cbn [app concat]. rewrite app_nil_r. destruct (item_tree (Child t a c)); cbn in T |- *.
      subst. reflexivity.
    + destruct (item_tree (Child t a c)); cbn. unfold more_tail, set_tail, more. cbn.
      rewrite concat_app. cbn. now rewrite app_nil_r, <- app_assoc.
Qed.

(** The element open at one level: tag, attributes and the items seen so far. *)
Definition level := (pystr * list (pystr * pystr) * list item)%type.
Definition level_open (l : level) : open_el :=
  let '(t, a, c) := l in
  {| o_tag := t; o_attrs := a; o_text := fst (items_tree c); o_kids := snd (items_tree c) |}.
Definition level_events (l : level) : list event :=
  let '(t, a, c) := l in EStart t a :: items_events c.

(** The state of the builder after the events of the top level items [top] and of the open
    levels [ls] (innermost first). *)
Definition tail_of (c : list item) : bool := match c with [] => false | _ => true end.
Definition last_child (l : list item) : option xnode := last_opt (snd (items_tree l)).

Inductive state_of : list item -> list level -> tb -> Prop :=
| st_top base ds tail :
    settled base ->
    (base <> [] -> tail = true) ->
    state_of (base ++ map Data ds) []
      {| tb_data := ds; tb_elem := []; tb_top := last_child base; tb_tail := tail |}
| st_open top t a base ds ls :
    settled base ->
    state_of top ((t, a, base ++ map Data ds) :: ls)
      {| tb_data := ds; tb_elem := level_open (t, a, base) :: map level_open ls;
         tb_top := last_child top; tb_tail := tail_of base |}.

Definition all_events (top : list item) (ls : list level) : list event :=
  items_events top ++ flat_map level_events (rev ls).

Lemma last_child_data base ds : last_child base = None -> last_child (base ++ map Data ds) = None.
Proof.
  intro H. unfold last_child in *. apply last_opt_nil in H.
  assert (forall ds acc, snd acc = [] ->
    snd (fold_left (add_item item_tree) (map Data ds) acc) = []) as K.
  { clear. induction ds as [|d ds IH]; intros [x k] E; cbn in *; [assumption|].
    subst. apply IH. reflexivity. }
  unfold items_tree in *. rewrite fold_left_app. rewrite K by assumption. reflexivity.
Qed.

Lemma settled_flush_open top t a base ds ls s :
  settled base ->
  s = {| tb_data := ds; tb_elem := level_open (t, a, base) :: map level_open ls;
         tb_top := last_child top; tb_tail := tail_of base |} ->
  tb_flush s = Ok {| tb_data := [];
                     tb_elem := level_open (t, a, base ++ map Data ds) :: map level_open ls;
                     tb_top := last_child top; tb_tail := tail_of base |}.
Proof.
  intros Hs ->. unfold tb_flush. cbn [tb_data tb_elem tb_tail tb_top].
  destruct ds as [|d ds]; [cbn [map]; now rewrite app_nil_r|].
  destruct Hs as [->|(l' & t' & a' & c' & ->)].
  - cbn [tail_of app level_open]. change (items_tree []) with (@None pystr, @nil xnode).
    cbn [o_text fst]. unfold with_data, with_elem. cbn [tb_data tb_elem tb_top tb_tail].
    rewrite items_tree_data_empty. reflexivity.
  - assert (tail_of (l' ++ [Child t' a' c']) = true) as -> by (destruct l'; reflexivity).
    cbn [level_open o_kids o_tag o_attrs o_text]. rewrite items_tree_snoc.
    unfold add_item at 1. cbn [snd fst]. rewrite last_opt_snoc.
    replace (xtail (item_tree (Child t' a' c'))) with (@None pystr)
      by (cbn [item_tree]; now destruct (fold_left _ _ _)).
    unfold with_data, with_elem. cbn [tb_data tb_elem tb_top tb_tail].
    rewrite items_tree_data. unfold add_item. cbn [fst snd].
    now rewrite upd_last_snoc.
Qed.

Lemma flush_top base ds tail :
  settled base ->
  tb_flush {| tb_data := ds; tb_elem := []; tb_top := last_child base; tb_tail := tail |}
  = Ok {| tb_data := []; tb_elem := []; tb_top := last_child (base ++ map Data ds); tb_tail := tail |}.
Proof.
  intros Hs. unfold tb_flush. cbn [tb_data tb_elem tb_tail tb_top].
  destruct ds as [|d ds]; [cbn [map]; now rewrite app_nil_r|].
  destruct Hs as [->|(l' & t' & a' & c' & ->)].
  - change (last_child []) with (@None xnode). cbn [app].
    rewrite <- (app_nil_l (map Data (d :: ds))), last_child_data by reflexivity. reflexivity.
  - unfold last_child. rewrite items_tree_data. cbn [snd]. rewrite last_opt_snoc.
    rewrite items_tree_snoc. unfold add_item. cbn [snd]. rewrite last_opt_snoc.
    replace (xtail (item_tree (Child t' a' c'))) with (@None pystr)
      by (cbn [item_tree]; now destruct (fold_left _ _ _)).
    reflexivity.
Qed.

(** one step *)
Lemma step_data top ls s d :
  state_of top ls s ->
  exists top' ls', state_of top' ls' (with_data (tb_data s ++ [d]) s)
    /\ all_events top' ls' = all_events top ls ++ [EData d].
Proof.
  intros [base ds tail Hs Ht|top' t a base ds ls' Hs].
  - exists ((base ++ map Data ds) ++ [Data d]), []. split.
    + rewrite <- app_assoc. change [Data d] with (map Data [d]). rewrite <- map_app.
      now apply (st_top base (ds ++ [d]) tail).
    + unfold all_events, items_events. rewrite flat_map_app. cbn. now rewrite !app_nil_r.
  - exists top', ((t, a, base ++ map Data (ds ++ [d])) :: ls'). split.
    + now apply st_open.
    + unfold all_events. cbn [rev]. rewrite !flat_map_app. rewrite <- !app_assoc. do 2 f_equal.
      cbn [flat_map level_events]. rewrite !app_nil_r. unfold items_events.
      rewrite map_app, !flat_map_app. cbn. rewrite <- !app_assoc. reflexivity.
Qed.

Lemma step_start top ls s t a :
  state_of top ls s ->
  exists s', tb_start t a s = Ok s' /\ state_of top ((t, a, []) :: ls) s'.
Proof.
  intros [base ds tail Hs Ht|top' t' a' base ds ls' Hs]; unfold tb_start.
  - rewrite flush_top by assumption. cbn [bind]. eexists. split; [reflexivity|].
    cbn [tb_data tb_elem tb_top].
    apply (st_open (base ++ map Data ds) t a [] [] []). now left.
  - erewrite settled_flush_open by (eauto; reflexivity). cbn [bind].
    eexists. split; [reflexivity|]. cbn [tb_data tb_elem tb_top].
    apply (st_open top' t a [] [] ((t', a', base ++ map Data ds) :: ls')). now left.
Qed.

Lemma step_end top t a c ls s :
  state_of top ((t, a, c) :: ls) s ->
  exists s', tb_end t s = Ok s'
  /\ match ls with
     | [] => state_of (top ++ [Child t a c]) [] s'
     | (t', a', c') :: ls' => state_of top ((t', a', c' ++ [Child t a c]) :: ls') s'
     end.
Proof.
  intro H. inversion H as [|top' t0 a0 base ds ls0 Hs E1 E2 E3]; subst.
  unfold tb_end. erewrite settled_flush_open by (eauto; reflexivity). cbn [bind tb_elem].
  cbn [level_open o_tag]. rewrite streq_refl.
  set (c := base ++ map Data ds).
  assert (XNode t a (o_text (level_open (t, a, c))) None (o_kids (level_open (t, a, c)))
          = item_tree (Child t a c)) as En.
  { cbn [level_open o_text o_kids item_tree]. unfold items_tree.
    destruct (fold_left (add_item item_tree) c (None, [])). reflexivity. }
  destruct ls as [|[[t' a'] c'] ls].
  - eexists. split; [reflexivity|].
    cbn [level_open o_tag o_attrs o_text o_kids tb_data] in *. rewrite En.
    replace (Some (item_tree (Child t a c))) with (last_child (top ++ [Child t a c])).
    + rewrite <- (app_nil_r (top ++ [Child t a c])) at 1.
      apply (st_top (top ++ [Child t a c]) [] true).
      * right. eauto.
      * auto.
    + unfold last_child. rewrite items_tree_snoc. cbn [add_item snd]. apply last_opt_snoc.
  - cbn [map]. eexists. split; [reflexivity|].
    cbn [level_open o_tag o_attrs o_text o_kids tb_data tb_top] in *. rewrite En.
    replace {| o_tag := t'; o_attrs := a'; o_text := fst (items_tree c');
               o_kids := snd (items_tree c') ++ [item_tree (Child t a c)] |}
      with (level_open (t', a', c' ++ [Child t a c])).
    + rewrite <- (app_nil_r (c' ++ [Child t a c])) at 1.
      replace true with (tail_of (c' ++ [Child t a c])) by (destruct c'; reflexivity).
      apply (st_open top t' a' (c' ++ [Child t a c]) [] ls). right. eauto.
    + cbn [level_open]. rewrite items_tree_snoc. reflexivity.
Qed.

Lemma step_end_events top t a c ls :
  match ls with
  | [] => all_events (top ++ [Child t a c]) []
  | (t', a', c') :: ls' => all_events top ((t', a', c' ++ [Child t a c]) :: ls')
  end = all_events top ((t, a, c) :: ls) ++ [EEnd t].
Proof.
  unfold all_events, items_events. destruct ls as [|[[t' a'] c'] ls]; cbn [rev app].
  - rewrite flat_map_app. cbn. rewrite !app_nil_r. now rewrite <- app_assoc.
  - rewrite !flat_map_app. cbn. unfold items_events. rewrite !app_nil_r.
    rewrite flat_map_app. cbn. rewrite app_nil_r. now rewrite <- !app_assoc.
Qed.
Lemma end_cases top ls s t :
  state_of top ls s ->
  match ls with
  | [] => exists e, tb_end t s = Raise e
  | (t', _, _) :: _ => t' <> t -> exists e, tb_end t s = Raise e
  end.
Proof.
  intros [base ds tail Hs Ht|top' t' a' base ds ls' Hs]; unfold tb_end.
  - rewrite flush_top by assumption. cbn. eauto.
  - intro Hne. erewrite settled_flush_open by (eauto; reflexivity). cbn [bind tb_elem].
    cbn [level_open o_tag]. destruct (streq_spec t' t); [congruence|]. eauto.
Qed.

(** whatever the builder accepts is the beginning of a document, and its state is the one
    that goes with it *)
Lemma run_sound es : forall top ls s s', state_of top ls s -> tb_run s es = Ok s' ->
  exists top' ls', state_of top' ls' s' /\ all_events top' ls' = all_events top ls ++ es.
Proof.
  induction es as [|e es IH]; intros top ls s s' H R; cbn [tb_run] in R.
  - injection R as <-. exists top, ls. rewrite app_nil_r. auto.
  - destruct e as [t a|d|t]; cbn [tb_event] in R.
    + destruct (step_start top ls s t a H) as (s1 & E & H1). rewrite E in R. cbn [bind] in R.
      destruct (IH _ _ _ _ H1 R) as (top' & ls' & H' & E'). exists top', ls'. split; [assumption|].
      rewrite E'. unfold all_events. cbn [rev]. rewrite flat_map_app. cbn.
      now rewrite <- !app_assoc.
    + cbn [bind] in R. destruct (step_data top ls s d H) as (top1 & ls1 & H1 & E1).
      destruct (IH _ _ _ _ H1 R) as (top' & ls' & H' & E'). exists top', ls'. split; [assumption|].
      rewrite E', E1, <- app_assoc. reflexivity.
    + pose proof (end_cases top ls s t H) as C. destruct ls as [|[[t' a'] c'] ls].
      * destruct C as (x & C). rewrite C in R. discriminate.
      * destruct (streq_spec t' t) as [->|Hne].
        -- destruct (step_end top t a' c' ls s H) as (s1 & E & H1). rewrite E in R. cbn [bind] in R.
           pose proof (step_end_events top t a' c' ls) as Ev.
           destruct ls as [|[[t2 a2] c2] ls];
             destruct (IH _ _ _ _ H1 R) as (top' & ls' & H' & E'); exists top', ls';
             (split; [assumption|]); rewrite E', Ev, <- app_assoc; reflexivity.
        -- destruct (C Hne) as (x & C'). rewrite C' in R. discriminate.
Qed.

(** and a document is accepted *)
Lemma item_ind' (P : item -> Prop) :
  (forall s, P (Data s)) ->
  (forall t a c, Forall P c -> P (Child t a c)) -> forall i, P i.
Proof.
  intros HD HC. fix IH 1. intros [s|t a c]; [apply HD|]. apply HC.
  induction c as [|i c IHc]; constructor; auto.
Qed.
Definition push (i : item) (tl : list item * list level) : list item * list level :=
  match snd tl with
  | [] => (fst tl ++ [i], [])
  | (t, a, c) :: ls => (fst tl, (t, a, c ++ [i]) :: ls)
  end.
Lemma tb_run_app es es' s :
  tb_run s (es ++ es') = (do s1 <- tb_run s es; tb_run s1 es').
Proof.
  revert s. induction es as [|e es IH]; intro s; cbn [tb_run app]; [reflexivity|].
  destruct (tb_event s e); cbn [bind]; auto.
Qed.
Lemma run_item i : forall top ls s, state_of top ls s ->
  exists s', tb_run s (item_events i) = Ok s'
    /\ state_of (fst (push i (top, ls))) (snd (push i (top, ls))) s'.
Proof.
  induction i as [d|t a c IH] using item_ind'; intros top ls s H.
  - cbn [item_events tb_run tb_event bind]. eexists. split; [reflexivity|].
    destruct H as [base ds tail Hs Ht|top' t' a' base ds ls' Hs]; cbn.
    + rewrite <- app_assoc. change [Data d] with (map Data [d]). rewrite <- map_app.
      now apply (st_top base (ds ++ [d]) tail).
    + rewrite <- app_assoc. change [Data d] with (map Data [d]). rewrite <- map_app.
      now apply st_open.
  - cbn [item_events]. destruct (step_start top ls s t a H) as (s1 & E1 & H1).
    assert (forall c0 s1, state_of top ((t, a, c0) :: ls) s1 ->
      exists s2, tb_run s1 (flat_map item_events c) = Ok s2
        /\ state_of top ((t, a, c0 ++ c) :: ls) s2) as K.
    { clear s1 E1 H1. induction IH as [|i c Hi IH IHc]; intros c0 s1 H1.
      - cbn. eexists. split; [reflexivity|]. now rewrite app_nil_r.
      - cbn [flat_map]. rewrite tb_run_app.
        destruct (Hi _ _ _ H1) as (s2 & -> & H2). cbn [bind]. cbn in H2.
        destruct (IHc _ _ H2) as (s3 & -> & H3). eexists. split; [reflexivity|].
        now rewrite <- app_assoc in H3. }
    destruct (K [] s1 H1) as (s2 & E2 & H2). cbn [app] in H2.
    destruct (step_end _ _ _ _ _ _ H2) as (s3 & E3 & H3).
    exists s3. split.
    + cbn [tb_run tb_event]. rewrite E1. cbn [bind]. rewrite tb_run_app, E2. cbn [bind tb_run].
      cbn [tb_event]. now rewrite E3.
    + destruct ls as [|[[t' a'] c'] ls]; exact H3.
Qed.
Lemma init_state : state_of [] [] tb_init.
Proof. apply (st_top [] [] false); [now left|congruence]. Qed.

(** C29: the events of any document give its tree, however its data is cut into pieces. *)
Theorem C29_builds t a c :
  exists s, tb_run tb_init (item_events (Child t a c)) = Ok s
    /\ tb_close s = Ok (item_tree (Child t a c)).
Proof.
  destruct (run_item (Child t a c) _ _ _ init_state) as (s & E & H).
  exists s. split; [assumption|]. cbn in H.
  change [Child t a c] with ([Child t a c] ++ []) in H.
  inversion H as [base ds tail Hs Ht E1 E2|]; subst. unfold tb_close. cbn [tb_elem tb_top].
  assert (ds = [] /\ base = [Child t a c]) as [-> ->].
  { destruct base as [|b base].
    - destruct ds; discriminate.
    - destruct base as [|b' base]; [destruct ds; [|discriminate]|].
      + cbn in E1. injection E1 as ->. auto.
      + discriminate. }
  reflexivity.
Qed.

(** Anything else is refused: a sequence of calls that ends in a tree consists of complete
    documents and data between them, and the tree is that of the last document, with the data
    that followed it (if something else came after that) as its tail. *)
Theorem C29_only_documents es s x :
  tb_run tb_init es = Ok s -> tb_close s = Ok x ->
  exists before t a c ds,
    es = items_events (before ++ Child t a c :: map Data ds)
    /\ x = item_tree (Child t a c).
Proof.
  intros R C. destruct (run_sound es _ _ _ _ init_state R) as (top & ls & H & E).
  unfold tb_close in C. destruct H as [base ds tail Hs Ht|]; [|discriminate].
  cbn [tb_elem tb_top] in C.
  destruct Hs as [->|(l' & t & a & c & ->)]; [discriminate|].
  exists l', t, a, c, ds. split.
  - cbn in E. rewrite <- E. unfold all_events. cbn [rev flat_map]. rewrite app_nil_r.
    now rewrite <- app_assoc.
  - unfold last_child in C. rewrite items_tree_snoc in C. cbn [add_item snd] in C.
    rewrite last_opt_snoc in C. now injection C as <-.
Qed.

(** the number of end calls never exceeds that of start calls in an accepted sequence, and
    close refuses when something is still open *)
Corollary C29_missing_end es t a s :
  tb_run tb_init (items_events es ++ [EStart t a]) = Ok s -> tb_close s = Raise AssertionError.
Proof.
  intro R. rewrite tb_run_app in R. destruct (tb_run tb_init (items_events es)) as [s1|]; [|discriminate].
  cbn [bind tb_run tb_event] in R. unfold tb_start in R.
  destruct (tb_flush s1); [|discriminate]. cbn [bind] in R. injection R as <-. reflexivity.
Qed.

Example C29_example :
  let doc := Child (lit "a") [(lit "k", lit "v")]
               [Data (lit "x"); Data (lit "y"); Child (lit "b") [] []; Data (lit "t")] in
  tb_run tb_init (item_events doc)
  = Ok {| tb_data := []; tb_elem := [];
          tb_top := Some (XNode (lit "a") [(lit "k", lit "v")] (Some (lit "xy")) None
                       [XNode (lit "b") [] None (Some (lit "t")) []]); tb_tail := true |}
  /\ (exists e, tb_run tb_init [EStart (lit "a") []; EEnd (lit "b")] = Raise e).
Proof. split; [reflexivity|eexists; reflexivity]. Qed.
