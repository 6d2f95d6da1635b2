(** C75: repairing documents (fixsldr). *)
From Coq Require Import String Lia.
From Verif Require Import Py PyFacts M_FixSldr.
Local Open Scope list_scope.

(** ** Lists of elements, by tag *)
Definition sel (q : pystr -> bool) (ks : list xel) : list xel := filter (fun x => q (xtag x)) ks.
Definition only (t : pystr) : pystr -> bool := fun s => streq s t.
Definition keeps_tag (f : xel -> xel) : Prop := forall x, xtag (f x) = xtag x.

Lemma tag_kids x k : xtag (set_kids x k) = xtag x. Proof. now destruct x. Qed.
Lemma tag_attrs x k : xtag (set_attrs x k) = xtag x. Proof. now destruct x. Qed.
Lemma tag_comments x k : xtag (set_comments x k) = xtag x. Proof. now destruct x. Qed.
Lemma kids_kids x k : xkids (set_kids x k) = k. Proof. now destruct x. Qed.
Lemma kids_self x : set_kids x (xkids x) = x. Proof. now destruct x. Qed.
Lemma kids_twice x a b : set_kids (set_kids x a) b = set_kids x b. Proof. now destruct x. Qed.
Lemma istag_only t x : istag t x = only t (xtag x). Proof. reflexivity. Qed.
Lemma istag_true t x : istag t x = true <-> xtag x = t. Proof. apply streq_true. Qed.

Lemma first_sel t q ks : q t = true -> first t (sel q ks) = first t ks.
Proof.
  intros Q. unfold first, sel. induction ks as [|k ks IH]; [reflexivity|]. cbn [filter find]. destruct (istag t k) eqn:E.
  - apply istag_true in E. rewrite E, Q. cbn [find]. unfold istag. now rewrite E, streq_refl.
  - destruct (q (xtag k)); cbn [find]; rewrite ?E; exact IH.
Qed.
Lemma first_head t ks : first t ks = hd_error (sel (only t) ks).
Proof.
  induction ks as [|k ks IH]; [reflexivity|]. cbn. unfold istag, only in *. destruct (streq (xtag k) t); [reflexivity|exact IH].
Qed.
Lemma sel_remove t q ks : sel q (remove_first t ks) = if q t then remove_first t (sel q ks) else sel q ks.
Proof.
  unfold sel. induction ks as [|k ks IH]; [now destruct (q t)|]. cbn [remove_first filter]. destruct (istag t k) eqn:E.
  - apply istag_true in E. rewrite E. destruct (q t); [|reflexivity]. cbn [remove_first]. unfold istag. now rewrite E, streq_refl.
  - cbn [filter]. rewrite IH. destruct (q (xtag k)), (q t); cbn [remove_first]; rewrite ?E; reflexivity.
Qed.
Lemma remove_only t ks : remove_first t (sel (only t) ks) = tl (sel (only t) ks).
Proof.
  induction ks as [|k ks IH]; [reflexivity|]. cbn. destruct (only t (xtag k)) eqn:E; [|exact IH]. cbn. rewrite istag_only. now rewrite E.
Qed.
Lemma sel_upd t f q ks : keeps_tag f -> sel q (upd_first t f ks) = if q t then upd_first t f (sel q ks) else sel q ks.
Proof.
  intros K. unfold sel. induction ks as [|k ks IH]; [now destruct (q t)|]. cbn [upd_first filter]. destruct (istag t k) eqn:E.
  - pose proof (proj1 (istag_true _ _) E) as E'. cbn [filter]. rewrite K, E'. destruct (q t); [|reflexivity]. cbn [upd_first]. now rewrite E.
  - cbn [filter]. rewrite IH. destruct (q (xtag k)), (q t); cbn [upd_first]; rewrite ?E; reflexivity.
Qed.
Lemma sel_upd2 t1 t2 f q ks : sel q (upd_first2 t1 t2 f ks) = if q t1 then upd_first2 t1 t2 f (sel q ks) else sel q ks.
Proof.
  unfold sel. induction ks as [|k ks IH]; [now destruct (q t1)|]. cbn [upd_first2 filter]. destruct (istag t1 k) eqn:E.
  - pose proof (proj1 (istag_true _ _) E) as E'. destruct (first t2 (xkids k)) eqn:F.
    + cbn [filter]. rewrite tag_kids, E'. destruct (q t1); [|reflexivity]. cbn [upd_first2]. now rewrite E, F.
    + cbn [filter]. rewrite E', IH. destruct (q t1); [|reflexivity]. cbn [upd_first2]. now rewrite E, F.
  - cbn [filter]. rewrite IH. destruct (q (xtag k)), (q t1); cbn [upd_first2]; rewrite ?E; reflexivity.
Qed.
Lemma sel_all2 t1 t2 f q ks : sel q (upd_all2 t1 t2 f ks) = if q t1 then upd_all2 t1 t2 f (sel q ks) else sel q ks.
Proof.
  unfold sel. induction ks as [|k ks IH]; [now destruct (q t1)|]. unfold upd_all2 in *. cbn [map filter].
  assert (T : xtag (if istag t1 k then set_kids k (map (fun y => if istag t2 y then f y else y) (xkids k)) else k) = xtag k) by (destruct (istag t1 k); [apply tag_kids|reflexivity]).
  rewrite T, IH. destruct (q (xtag k)) eqn:Q, (q t1) eqn:Q1; cbn [map]; try reflexivity.
  destruct (istag t1 k) eqn:E; [apply istag_true in E; congruence|reflexivity].
Qed.
Lemma sel_app q a b : sel q (a ++ b) = sel q a ++ sel q b. Proof. apply filter_app. Qed.
Lemma sel_sil a v q ks : sel q (add_sil a v ks) = if q (lit "identity") then add_sil a v (sel q ks) else sel q ks.
Proof.
  assert (K : keeps_tag (sil_in a v)) by (intros x; unfold sil_in; destruct (first2 _ _ _); apply tag_kids).
  unfold add_sil. destruct (q (lit "identity")) eqn:Q.
  - rewrite first_sel by exact Q. destruct (first (lit "identity") ks).
    + rewrite sel_upd by exact K. now rewrite Q.
    + rewrite sel_app. f_equal. cbn [sel filter]. rewrite K. cbn [xtag]. now rewrite Q.
  - destruct (first (lit "identity") ks).
    + rewrite sel_upd by exact K. now rewrite Q.
    + rewrite sel_app. cbn [sel filter]. rewrite K. cbn [xtag]. rewrite Q. apply app_nil_r.
Qed.

(** ** What is wanted of each part *)
(** the parts of an orientation that are worth keeping *)
Definition orient_kept (o : xel) : xel := drop_default (lit "lineOrder") (lit "top-to-bottom") (drop_default (lit "characterOrder") (lit "left-to-right") o).
(** the value of status *)
Definition status_of (ks : list xel) : option pystr := match first (lit "status") ks with Some s => get s (lit "value") | None => None end.
Definition region_of (ks : list xel) : option pystr :=
  match first2 (lit "regionInfo") (lit "region") ks with Some r => get r (lit "type") | None => None end.

Lemma keeps_drop t v o : xtag (drop_default t v o) = xtag o.
Proof. unfold drop_default. destruct (first _ _) as [x|]; [|reflexivity]. destruct (xtext x) as [s|]; [|reflexivity]. destruct (streq s v); [apply tag_kids|reflexivity]. Qed.
Lemma keeps_orient o : xtag (orient_kept o) = xtag o.
Proof. unfold orient_kept. now rewrite !keeps_drop. Qed.

Lemma first_tag t ks x : first t ks = Some x -> xtag x = t.
Proof. intros H. apply find_some in H. now apply istag_true. Qed.

Lemma sel_orientation q ks : q (lit "layout") = false -> sel q (fix_orientation ks) = if q (lit "orientation") then remove_first (lit "orientation") (sel q ks) else sel q ks.
Proof.
  intros L. unfold fix_orientation. fold orient_kept. destruct (first (lit "orientation") ks) as [o|] eqn:F.
  - fold (orient_kept o). destruct (xkids (orient_kept o)); [apply sel_remove|]. destruct (first (lit "layout") _).
    + rewrite sel_upd by (intros y; apply tag_kids). rewrite L. apply sel_remove.
    + rewrite sel_app, sel_remove. cbn [sel filter xtag]. rewrite L. apply app_nil_r.
  - destruct (q (lit "orientation")) eqn:Q; [|reflexivity]. rewrite <- (first_sel _ q) in F by exact Q.
    clear Q. induction (sel q ks) as [|k l IH]; [reflexivity|]. cbn [first find remove_first] in *. unfold first in *. cbn [find] in F. destruct (istag (lit "orientation") k); [discriminate|].
    f_equal. now apply IH.
Qed.
Lemma no_first_remove t ks : first t ks = None -> remove_first t ks = ks.
Proof.
  unfold first. induction ks as [|k ks IH]; intros F; [reflexivity|]. cbn [find remove_first] in *. destruct (istag t k); [discriminate|]. f_equal. now apply IH.
Qed.
Lemma sel_status q ks : q (lit "identity") = false -> q (lit "characters") = false ->
  sel q (fix_status ks) = if q (lit "status") then remove_first (lit "status") (sel q ks) else sel q ks.
Proof.
  intros I C. unfold fix_status. destruct (first (lit "status") ks) as [s|] eqn:F.
  - destruct (get s (lit "value")) as [v|]; [|apply sel_remove]. destruct (streq v (lit "HOLD")), (streq v (lit "Draft")); cbn [orb];
      rewrite ?sel_all2, ?C, ?sel_sil, ?I, ?sel_remove; reflexivity.
  - destruct (q (lit "status")) eqn:Q; [|reflexivity]. symmetry. apply no_first_remove. now rewrite first_sel.
Qed.
Lemma sel_region q ks : q (lit "identity") = false -> sel q (fix_region ks) = if q (lit "regionInfo") then remove_first (lit "regionInfo") (sel q ks) else sel q ks.
Proof.
  intros I. unfold fix_region. rewrite sel_remove. destruct (first2 _ _ ks) as [r|]; [|reflexivity]. destruct (dget streq regionmap _); [|reflexivity].
  rewrite sel_sil, I. reflexivity.
Qed.
Lemma sel_identity lm q ks : q (lit "identity") = false -> q (lit "characters") = false -> sel q (fix_identity lm ks) = sel q ks.
Proof. intros I C. unfold fix_identity. now rewrite sel_upd2, I, sel_all2, C, sel_upd2, I, sel_upd2, I. Qed.

(** ** What is gone, and what stays *)
(** Of orientation, status and regionInfo the first is taken away *)
Theorem C75_gone : forall langmap root t, In t ["orientation"; "status"; "regionInfo"]%string ->
  sel (only (lit t)) (xkids (fixdoc langmap root)) = tl (sel (only (lit t)) (xkids root)).
Proof.
  intros lm root t [<-|[<-|[<-|[]]]]; unfold fixdoc; rewrite kids_kids, sel_identity, sel_region, sel_status, sel_orientation by reflexivity;
    match goal with |- context [only (lit ?a) (lit "regionInfo")] => idtac end;
    repeat match goal with |- context [if only (lit ?a) (lit ?b) then _ else _] =>
      let c := eval vm_compute in (only (lit a) (lit b)) in change (only (lit a) (lit b)) with c; cbv iota end;
    apply remove_only.
Qed.
(** All else at the top, but for layout, identity and characters, stays as it was and in order *)
Definition touched : list string := ["orientation"; "layout"; "status"; "regionInfo"; "identity"; "characters"]%string.
Definition untouched (s : pystr) : bool := negb (existsb (fun t => streq s (lit t)) touched).
Theorem C75_untouched : forall langmap root,
  sel untouched (xkids (fixdoc langmap root)) = sel untouched (xkids root) /\
  xtag (fixdoc langmap root) = xtag root /\ xattrs (fixdoc langmap root) = xattrs root /\ xtext (fixdoc langmap root) = xtext root.
Proof.
  intros lm [t a s c k]. unfold fixdoc. cbn [xkids set_kids xtag xattrs xtext]. split; [|auto].
  now rewrite sel_identity, sel_region, sel_status, sel_orientation by reflexivity.
Qed.

(** ** Orientation *)
Theorem C75_layout : forall langmap root, let L := sel (only (lit "layout")) (xkids root) in
  sel (only (lit "layout")) (xkids (fixdoc langmap root)) =
  match first (lit "orientation") (xkids root) with
  | None => L
  | Some o =>
      match xkids (orient_kept o), L with
      | [], _ => L
      | _, [] => [X (lit "layout") [] None [] [orient_kept o]]
      | _, l :: ls => set_kids l (xkids l ++ [orient_kept o]) :: ls
      end
  end.
Proof.
  intros lm root. cbv zeta. unfold fixdoc. rewrite kids_kids, sel_identity, sel_region, sel_status by reflexivity.
  change (only (lit "layout") (lit "regionInfo")) with false. change (only (lit "layout") (lit "status")) with false. cbv iota.
  unfold fix_orientation. destruct (first (lit "orientation") (xkids root)) as [o|]; [|reflexivity]. fold (orient_kept o).
  assert (R : sel (only (lit "layout")) (remove_first (lit "orientation") (xkids root)) = sel (only (lit "layout")) (xkids root)) by now rewrite sel_remove.
  destruct (xkids (orient_kept o)); [exact R|]. rewrite first_head, R. 
  destruct (sel (only (lit "layout")) (xkids root)) as [|l0 ls] eqn:E; cbn [hd_error].
  - rewrite sel_app, R. reflexivity.
  - rewrite sel_upd by (intros y; apply tag_kids). change (only (lit "layout") (lit "layout")) with true. cbv iota. rewrite R. cbn [upd_first].
    assert (T : istag (lit "layout") l0 = true) by (assert (I : In l0 (sel (only (lit "layout")) (xkids root))) by (rewrite E; now left); apply filter_In in I; apply I).
    now rewrite T.
Qed.
(** A default order is dropped, another one kept, and so is all else *)
Theorem C75_orientation : forall o t d, In (t, d) [("characterOrder", "left-to-right"); ("lineOrder", "top-to-bottom")]%string ->
  sel (only (lit t)) (xkids (orient_kept o)) =
    match sel (only (lit t)) (xkids o) with
    | [] => []
    | c :: cs => match xtext c with Some s => if streq s (lit d) then cs else c :: cs | None => c :: cs end
    end.
Proof.
  assert (D : forall t v o q, sel q (xkids (drop_default t v o)) = if q t then match first t (xkids o) with
      | Some c => match xtext c with Some s => if streq s v then remove_first t (sel q (xkids o)) else sel q (xkids o) | None => sel q (xkids o) end | None => sel q (xkids o) end else sel q (xkids o)).
  { intros t v o q. unfold drop_default. destruct (first t (xkids o)) as [c|]; [|now destruct (q t)]. destruct (xtext c) as [s|]; [|now destruct (q t)].
    destruct (streq s v); [|now destruct (q t)]. rewrite kids_kids, sel_remove. now destruct (q t). }
  intros o t d I. unfold orient_kept. destruct I as [E|[E|[]]]; injection E as <- <-; rewrite !D;
  repeat match goal with |- context [if only (lit ?a) (lit ?b) then _ else _] =>
      let c := eval vm_compute in (only (lit a) (lit b)) in change (only (lit a) (lit b)) with c; cbv iota end.
  - rewrite first_head. destruct (sel (only (lit "characterOrder")) (xkids o)) as [|c cs] eqn:S; [reflexivity|]. cbn [hd_error]. destruct (xtext c) as [s|]; [|reflexivity]. destruct (streq s (lit "left-to-right")); [|reflexivity].
    rewrite <- S, remove_only, S. reflexivity.
  - rewrite first_head, D. change (only (lit "lineOrder") (lit "characterOrder")) with false. cbv iota.
    destruct (sel (only (lit "lineOrder")) (xkids o)) as [|c cs] eqn:S; [reflexivity|]. cbn [hd_error]. destruct (xtext c) as [s|]; [|reflexivity]. destruct (streq s (lit "top-to-bottom")); [|reflexivity].
    rewrite <- S, remove_only, S. reflexivity.
Qed.

(** ** Status: drafts of the exemplars *)
Definition new_draft (held : bool) (e : xel) : option pystr :=
  match get e (lit "draft") with Some d => Some d | None => if held then Some (lit "unconfirmed") else None end.
Definition drafted (ks : list xel) : bool := match status_of ks with Some v => (streq v (lit "Draft") || streq v (lit "HOLD"))%bool | None => false end.
Definition exemplar (t : pystr) : bool := streq t (lit "exemplarCharacters").
(** the characters elements, with their exemplars redone *)
Definition redo (held : bool) (c : xel) : xel :=
  set_kids c (map (fun e => if exemplar (xtag e) then set_comments (if held then undraft e else e) [] else e) (xkids c)).
Lemma sel_fix_orient_st t ks : t <> lit "layout" -> t <> lit "orientation" -> sel (only t) (fix_orientation ks) = sel (only t) ks.
Proof.
  intros A B. rewrite sel_orientation.
  - unfold only at 1. destruct (streq_spec (lit "orientation") t); [congruence|reflexivity].
  - apply streq_false. congruence.
Qed.
Lemma first_only t ks ks' : sel (only t) ks = sel (only t) ks' -> first t ks = first t ks'.
Proof. intros E. now rewrite !first_head, E. Qed.
Lemma status_orient ks : status_of (fix_orientation ks) = status_of ks.
Proof.
  unfold status_of. rewrite (first_only (lit "status") (fix_orientation ks) ks); [reflexivity|]. now rewrite sel_orientation.
Qed.
Lemma map_all2 t2 f ks t1 : Forall (fun k => istag t1 k = true) ks -> upd_all2 t1 t2 f ks = map (fun k => set_kids k (map (fun y => if istag t2 y then f y else y) (xkids k))) ks.
Proof.
  intros F. unfold upd_all2. apply map_ext_in. intros k I. rewrite Forall_forall in F. now rewrite (F k I).
Qed.
Lemma sel_Forall t ks : Forall (fun k => istag t k = true) (sel (only t) ks).
Proof. apply Forall_forall. intros k I. apply filter_In in I. apply I. Qed.
Lemma tag_undraft e : xtag (undraft e) = xtag e.
Proof. unfold undraft. destruct (get e (lit "draft")); [reflexivity|]. apply tag_attrs. Qed.
Theorem C75_characters : forall langmap root,
  sel (only (lit "characters")) (xkids (fixdoc langmap root)) = map (redo (drafted (xkids root))) (sel (only (lit "characters")) (xkids root)).
Proof.
  intros lm root. unfold fixdoc. rewrite kids_kids. unfold fix_identity. rewrite sel_upd2. change (only (lit "characters") (lit "identity")) with false. cbv iota.
  rewrite sel_all2. change (only (lit "characters") (lit "characters")) with true. cbv iota. rewrite !sel_upd2. change (only (lit "characters") (lit "identity")) with false. cbv iota.
  rewrite sel_region by reflexivity. change (only (lit "characters") (lit "regionInfo")) with false. cbv iota.
  rewrite map_all2 by apply sel_Forall.
  assert (S : sel (only (lit "characters")) (fix_status (fix_orientation (xkids root))) =
     (if drafted (xkids root) then map (fun k => set_kids k (map (fun y => if istag (lit "exemplarCharacters") y then undraft y else y) (xkids k))) else fun l => l) (sel (only (lit "characters")) (xkids root))).
  { assert (O : sel (only (lit "characters")) (fix_orientation (xkids root)) = sel (only (lit "characters")) (xkids root)) by now rewrite sel_orientation.
    unfold drafted. rewrite <- (status_orient (xkids root)). rewrite <- O. generalize (fix_orientation (xkids root)). intros ks. unfold status_of, fix_status.
    destruct (first (lit "status") ks) as [s|]; [|reflexivity]. destruct (get s (lit "value")) as [v|]; [|now rewrite sel_remove].
    assert (Y : forall b : bool, sel (only (lit "characters")) (if b then add_sil (lit "usage") (lit "unused") (remove_first (lit "status") ks) else remove_first (lit "status") ks) = sel (only (lit "characters")) ks).
    { intros []; rewrite ?sel_sil; change (only (lit "characters") (lit "identity")) with false; cbv iota; now rewrite sel_remove. }
    destruct (streq v (lit "Draft") || streq v (lit "HOLD"))%bool; [|apply Y].
    rewrite sel_all2. change (only (lit "characters") (lit "characters")) with true. cbv iota. rewrite Y. apply map_all2. apply sel_Forall. }
  rewrite S. destruct (drafted (xkids root)).
  - rewrite map_map. apply map_ext. intros c. unfold redo. rewrite kids_kids, kids_twice. f_equal. rewrite map_map. apply map_ext. intros e.
    change (exemplar (xtag e)) with (istag (lit "exemplarCharacters") e). destruct (istag (lit "exemplarCharacters") e) eqn:E.
    + unfold istag. rewrite tag_undraft. fold (istag (lit "exemplarCharacters") e). now rewrite E.
    + now rewrite E.
  - apply map_ext. intros c. unfold redo. f_equal.
Qed.
(** held or draft documents: exemplars without a draft status get "unconfirmed", no other
    attribute changes *)
Theorem C75_undraft : forall e, get (undraft e) (lit "draft") = new_draft true e /\ (forall a, a <> lit "draft" -> get (undraft e) a = get e a) /\
  xtag (undraft e) = xtag e /\ xtext (undraft e) = xtext e /\ xkids (undraft e) = xkids e.
Proof.
  intros [t a s c k]. unfold undraft, new_draft, get, set. cbn [xattrs set_attrs]. destruct (dget streq a (lit "draft")) eqn:E; cbn [xattrs xtag xtext xkids].
  - rewrite E. auto.
  - rewrite (dget_dset_same streq streq_spec). repeat split; auto. intros b N. now apply (dget_dset_other streq streq_spec).
Qed.

(** ** The SIL identity *)
Definition silattr (ks : list xel) (b : pystr) : option pystr :=
  match first (lit "identity") ks with
  | Some i => match first2 (lit "special") silid (xkids i) with Some s => get s b | None => None end
  | None => None
  end.
Lemma first_upd_same t f ks : keeps_tag f -> first t (upd_first t f ks) = option_map f (first t ks).
Proof.
  intros K. unfold first. induction ks as [|k ks IH]; [reflexivity|]. cbn [upd_first find]. destruct (istag t k) eqn:E.
  - cbn [find option_map]. unfold istag. rewrite K. fold (istag t k). now rewrite E.
  - cbn [find]. now rewrite E.
Qed.
Lemma first_upd_other t t' f ks : keeps_tag f -> t <> t' -> first t (upd_first t' f ks) = first t ks.
Proof.
  intros K N. unfold first. induction ks as [|k ks IH]; [reflexivity|]. cbn [upd_first find]. destruct (istag t' k) eqn:E.
  - cbn [find]. unfold istag. rewrite K. fold (istag t k). destruct (istag t k) eqn:E2; [|reflexivity].
    apply istag_true in E, E2. congruence.
  - cbn [find]. now rewrite IH.
Qed.
Lemma first2_upd2_same t1 t2 f ks : keeps_tag f -> first2 t1 t2 (upd_first2 t1 t2 f ks) = option_map f (first2 t1 t2 ks).
Proof.
  intros K. induction ks as [|k ks IH]; [reflexivity|]. cbn [upd_first2 first2]. destruct (istag t1 k) eqn:E.
  - destruct (first t2 (xkids k)) as [y|] eqn:F.
    + cbn [first2]. unfold istag. rewrite tag_kids. fold (istag t1 k). rewrite E, kids_kids, first_upd_same by exact K. now rewrite F.
    + cbn [first2]. now rewrite E, F.
  - cbn [first2]. now rewrite E.
Qed.
Lemma first2_upd2_other t1 t2 t1' t3 f ks : keeps_tag f -> t2 <> t3 -> first2 t1 t2 (upd_first2 t1' t3 f ks) = first2 t1 t2 ks.
Proof.
  intros K N. induction ks as [|k ks IH]; [reflexivity|]. cbn [upd_first2]. destruct (istag t1' k) eqn:E'.
  - destruct (first t3 (xkids k)) as [y|] eqn:F; cbn [first2].
    + unfold istag at 1. rewrite tag_kids. fold (istag t1 k). rewrite kids_kids, first_upd_other by assumption. reflexivity.
    + now rewrite IH.
  - cbn [first2]. now rewrite IH.
Qed.
Lemma first2_sel t1 t2 q ks : q t1 = true -> first2 t1 t2 (sel q ks) = first2 t1 t2 ks.
Proof.
  intros Q. unfold sel. induction ks as [|k ks IH]; [reflexivity|]. cbn [filter first2]. destruct (istag t1 k) eqn:E.
  - pose proof (proj1 (istag_true _ _) E) as E'. rewrite E', Q. cbn [first2]. now rewrite E, IH.
  - destruct (q (xtag k)); cbn [first2]; rewrite ?E; exact IH.
Qed.
Lemma first2_only t1 t2 ks ks' : sel (only t1) ks = sel (only t1) ks' -> first2 t1 t2 ks = first2 t1 t2 ks'.
Proof.
  intros E. rewrite <- (first2_sel t1 t2 (only t1) ks), <- (first2_sel t1 t2 (only t1) ks') by apply streq_refl. now rewrite E.
Qed.
Lemma keeps_sil a v : keeps_tag (sil_in a v).
Proof. intros x; unfold sil_in; destruct (first2 _ _ _); apply tag_kids. Qed.
Lemma keeps_set a v : keeps_tag (set a v).
Proof. intros x. apply tag_attrs. Qed.
Lemma get_set a v x b : get (set a v x) b = if streq b a then Some v else get x b.
Proof. destruct x. unfold get, set. cbn. apply (dget_dset streq streq_spec). Qed.
Lemma sil_in_attr a v i b : match first2 (lit "special") silid (xkids (sil_in a v i)) with Some s => get s b | None => None end
  = if streq b a then Some v else match first2 (lit "special") silid (xkids i) with Some s => get s b | None => None end.
Proof.
  unfold sil_in. destruct (first2 (lit "special") silid (xkids i)) as [s|] eqn:F; rewrite kids_kids.
  - rewrite first2_upd2_same by apply keeps_set. rewrite F. cbn [option_map]. apply get_set.
  - assert (A : forall l m, first2 (lit "special") silid l = None -> first2 (lit "special") silid (l ++ m) = first2 (lit "special") silid m).
    { induction l as [|k l IH]; intros m N; [reflexivity|]. cbn [app first2] in *. destruct (istag (lit "special") k); [|now apply IH].
      destruct (first silid (xkids k)); [discriminate|now apply IH]. }
    rewrite A by exact F.
    assert (N : forall x, first2 (lit "special") silid [X (lit "special") [] None [] [x]] = first silid [x]) by (intros x; cbn [first2 xkids]; change (istag (lit "special") (X (lit "special") [] None [] [x])) with true; cbv iota; now destruct (first silid [x])).
    rewrite N. change (first silid [X silid [(a, v)] None [] []]) with (Some (X silid [(a, v)] None [] [])). cbv iota. unfold get. cbn [xattrs dget]. reflexivity.
Qed.
Lemma sil_set a v ks b : silattr (add_sil a v ks) b = if streq b a then Some v else silattr ks b.
Proof.
  unfold silattr, add_sil. destruct (first (lit "identity") ks) as [i|] eqn:F.
  - rewrite first_upd_same by apply keeps_sil. rewrite F. cbn [option_map]. apply sil_in_attr.
  - assert (A : forall l m, first (lit "identity") l = None -> first (lit "identity") (l ++ m) = first (lit "identity") m).
    { unfold first. induction l as [|k l IH]; intros m N; [reflexivity|]. cbn [app find] in *. destruct (istag (lit "identity") k); [discriminate|now apply IH]. }
    rewrite A by exact F. set (new := X (lit "identity") [] None [] []). unfold first. cbn [find].
    assert (T : istag (lit "identity") (sil_in a v new) = true) by (apply istag_true; apply keeps_sil). rewrite T, sil_in_attr. reflexivity.
Qed.
Lemma silattr_only ks ks' b : sel (only (lit "identity")) ks = sel (only (lit "identity")) ks' -> silattr ks b = silattr ks' b.
Proof. intros E. unfold silattr. now rewrite (first_only _ _ _ E). Qed.
Lemma silattr_upd2 t f ks b : keeps_tag f -> t <> lit "special" -> silattr (upd_first2 (lit "identity") t f ks) b = silattr ks b.
Proof.
  intros K N. unfold silattr. rewrite !first_head. rewrite sel_upd2. change (only (lit "identity") (lit "identity")) with true. cbv iota.
  pose proof (sel_Forall (lit "identity") ks) as A. destruct (sel (only (lit "identity")) ks) as [|i l]; [reflexivity|]. inversion A as [|? ? A1 A2]; subst.
  cbn [upd_first2]. rewrite A1. destruct (first t (xkids i)); [|reflexivity]. cbn [hd_error]. rewrite kids_kids.
  replace (first2 (lit "special") silid (upd_first t f (xkids i))) with (first2 (lit "special") silid (xkids i)); [reflexivity|].
  apply first2_only. rewrite sel_upd by exact K. unfold only at 2. destruct (streq_spec t (lit "special")); [contradiction|reflexivity].
Qed.
Lemma keeps_subtag : keeps_tag fix_subtag.
Proof. intros x. unfold fix_subtag. now rewrite tag_comments, tag_attrs. Qed.
Lemma keeps_name lm : keeps_tag (name_comment lm).
Proof. intros x. unfold name_comment. destruct (xcomments x); [apply tag_comments|reflexivity]. Qed.
Lemma region_status ks : region_of (fix_status (fix_orientation ks)) = region_of ks.
Proof.
  unfold region_of. rewrite (first2_only (lit "regionInfo") (lit "region") (fix_status (fix_orientation ks)) ks); [reflexivity|].
  now rewrite sel_status, sel_orientation.
Qed.
Lemma silattr_status ks b : silattr (fix_status ks) b =
  if (streq b (lit "usage") && match status_of ks with Some v => streq v (lit "HOLD") | None => false end)%bool then Some (lit "unused") else silattr ks b.
Proof.
  unfold fix_status, status_of. destruct (first (lit "status") ks) as [s|]; [|now rewrite andb_false_r].
  assert (R : silattr (remove_first (lit "status") ks) b = silattr ks b) by (apply silattr_only; now rewrite sel_remove).
  destruct (get s (lit "value")) as [v|]; [|now rewrite andb_false_r].
  assert (A : forall l, silattr (upd_all2 (lit "characters") (lit "exemplarCharacters") undraft l) b = silattr l b) by (intros l; apply silattr_only; now rewrite sel_all2).
  destruct (streq v (lit "HOLD")), (streq v (lit "Draft")); cbn [orb]; rewrite ?A, ?sil_set, ?R, ?andb_true_r, ?andb_false_r; reflexivity.
Qed.
(** Holding sets usage, a known region defaultRegion; no other attribute of the SIL identity
    changes *)
Theorem C75_silidentity : forall langmap root b,
  silattr (xkids (fixdoc langmap root)) b =
  match (if streq b (lit "defaultRegion") then match region_of (xkids root) with Some r => dget streq regionmap r | None => None end else None) with
  | Some code => Some code
  | None => if (streq b (lit "usage") && match status_of (xkids root) with Some v => streq v (lit "HOLD") | None => false end)%bool then Some (lit "unused") else silattr (xkids root) b
  end.
Proof.
  intros lm root b. unfold fixdoc. rewrite kids_kids. unfold fix_identity. rewrite silattr_upd2 by (apply keeps_name || discriminate).
  match goal with |- context [silattr (upd_all2 ?a1 ?a2 ?a3 ?l) b] => rewrite (silattr_only (upd_all2 a1 a2 a3 l) l b) by (now rewrite sel_all2) end. rewrite !silattr_upd2 by (apply keeps_subtag || discriminate).
  assert (O : silattr (fix_status (fix_orientation (xkids root))) b = if (streq b (lit "usage") && match status_of (xkids root) with Some v => streq v (lit "HOLD") | None => false end)%bool then Some (lit "unused") else silattr (xkids root) b).
  { rewrite silattr_status, status_orient. rewrite (silattr_only (fix_orientation (xkids root)) (xkids root)) by now rewrite sel_orientation. reflexivity. }
  unfold fix_region. match goal with |- context [silattr (remove_first ?a1 ?l) b] => rewrite (silattr_only (remove_first a1 l) l b) by (now rewrite sel_remove) end.
  pose proof (region_status (xkids root)) as RS. unfold region_of in *. destruct (first2 (lit "regionInfo") (lit "region") (fix_status (fix_orientation (xkids root)))) as [r|].
  - rewrite <- RS. destruct (get r (lit "type")) as [t|].
    + destruct (dget streq regionmap t) as [c|].
      * rewrite sil_set. destruct (streq b (lit "defaultRegion")); [reflexivity|exact O].
      * destruct (streq b (lit "defaultRegion")); exact O.
    + change (dget streq regionmap []) with (@None pystr). destruct (streq b (lit "defaultRegion")); exact O.
  - rewrite <- RS. destruct (streq b (lit "defaultRegion")); exact O.
Qed.

(** ** Language and script *)
Lemma first2_sil t a v ks : t <> lit "special" -> first2 (lit "identity") t (add_sil a v ks) = first2 (lit "identity") t ks.
Proof.
  intros N. assert (I : forall i, first t (xkids (sil_in a v i)) = first t (xkids i)).
  { intros i. unfold sil_in. destruct (first2 _ _ _); rewrite kids_kids.
    - apply first_only. rewrite sel_upd2. unfold only at 1. destruct (streq_spec (lit "special") t); [congruence|reflexivity].
    - apply first_only. rewrite sel_app. cbn [sel filter xtag]. unfold only at 2. destruct (streq_spec (lit "special") t); [congruence|]. apply app_nil_r. }
  unfold add_sil. destruct (first (lit "identity") ks) as [i|] eqn:F.
  - clear F. induction ks as [|k ks IH]; [reflexivity|]. cbn [upd_first first2]. destruct (istag (lit "identity") k) eqn:E.
    + cbn [first2]. unfold istag. rewrite keeps_sil. fold (istag (lit "identity") k). now rewrite E, I.
    + cbn [first2]. now rewrite E.
  - assert (A : forall l m, first2 (lit "identity") t (l ++ m) = match first2 (lit "identity") t l with Some y => Some y | None => first2 (lit "identity") t m end).
    { induction l as [|k l IH]; intros m; [reflexivity|]. cbn [app first2]. destruct (istag (lit "identity") k); [|apply IH]. destruct (first t (xkids k)); [reflexivity|apply IH]. }
    rewrite A. destruct (first2 (lit "identity") t ks); [reflexivity|]. cbn [first2]. destruct (istag _ _); [|reflexivity]. now rewrite I.
Qed.
Lemma first2_before t root : t <> lit "special" -> first2 (lit "identity") t (fix_region (fix_status (fix_orientation (xkids root)))) = first2 (lit "identity") t (xkids root).
Proof.
  intros N. assert (O : first2 (lit "identity") t (fix_orientation (xkids root)) = first2 (lit "identity") t (xkids root)) by (apply first2_only; now rewrite sel_orientation).
  rewrite <- O. generalize (fix_orientation (xkids root)). intros ks.
  assert (R : forall l, first2 (lit "identity") t (fix_region l) = first2 (lit "identity") t l).
  { intros l. unfold fix_region. match goal with |- context [first2 _ t (remove_first ?a1 ?l2)] => rewrite (first2_only (lit "identity") t (remove_first a1 l2) l2) by (now rewrite sel_remove) end.
    destruct (first2 (lit "regionInfo") _ l); [|reflexivity]. destruct (dget streq regionmap _); [|reflexivity]. now apply first2_sil. }
  rewrite R. unfold fix_status. destruct (first (lit "status") ks); [|reflexivity].
  assert (Q : first2 (lit "identity") t (remove_first (lit "status") ks) = first2 (lit "identity") t ks) by (apply first2_only; now rewrite sel_remove).
  destruct (get x (lit "value")) as [v|]; [|exact Q].
  assert (A : forall l, first2 (lit "identity") t (upd_all2 (lit "characters") (lit "exemplarCharacters") undraft l) = first2 (lit "identity") t l) by (intros l; apply first2_only; now rewrite sel_all2).
  destruct (streq v (lit "HOLD")), (streq v (lit "Draft")); cbn [orb]; rewrite ?A, ?first2_sil, ?Q by exact N; reflexivity.
Qed.
Lemma first2_identity lm t ks : t = lit "language" \/ t = lit "script" ->
  first2 (lit "identity") t (fix_identity lm ks) = option_map (fun x => if streq t (lit "language") then name_comment lm (fix_subtag x) else fix_subtag x) (first2 (lit "identity") t ks).
Proof.
  intros T. unfold fix_identity.
  assert (A : forall l, first2 (lit "identity") t (upd_all2 (lit "characters") (lit "exemplarCharacters") (fun e => set_comments e []) l) = first2 (lit "identity") t l) by (intros l; apply first2_only; now rewrite sel_all2).
  destruct T as [-> | ->].
  - rewrite first2_upd2_same by apply keeps_name. rewrite A, first2_upd2_other by (apply keeps_subtag || discriminate). rewrite first2_upd2_same by apply keeps_subtag.
    rewrite streq_refl. now destruct (first2 _ _ ks).
  - rewrite first2_upd2_other by (apply keeps_name || discriminate). rewrite A, first2_upd2_same by apply keeps_subtag. rewrite first2_upd2_other by (apply keeps_subtag || discriminate).
    change (streq (lit "script") (lit "language")) with false. reflexivity.
Qed.
(** the code becomes the type, the name goes, and a comment says what the language is *)
Definition subtag_attr (x : xel) (b : pystr) : option pystr :=
  if streq b (lit "name") then None
  else if streq b (lit "code") then None
  else if streq b (lit "type") then match get x (lit "code") with Some c => Some c | None => get x (lit "type") end
  else get x b.
Lemma subtag_get x b : NoDup (dkeys (xattrs x)) -> get (fix_subtag x) b = subtag_attr x b.
Proof.
  destruct x as [t a s c k]. cbn [xattrs]. intros N. unfold fix_subtag, subtag_attr, get. cbn [set_attrs set_comments xattrs].
  assert (N1 : NoDup (dkeys (ddel streq a (lit "name")))) by now apply (ddel_NoDup streq).
  assert (G : dget streq (ddel streq a (lit "name")) (lit "code") = dget streq a (lit "code")) by (rewrite (dget_ddel streq streq_spec) by exact N; reflexivity).
  rewrite G. destruct (dget streq a (lit "code")) as [v|] eqn:E.
  - rewrite (dget_dset streq streq_spec), (dget_ddel streq streq_spec), (dget_ddel streq streq_spec) by assumption.
    destruct (streq_spec b (lit "type")) as [->|]; [reflexivity|]. destruct (streq_spec b (lit "code")) as [->|]; [reflexivity|]. destruct (streq b (lit "name")); reflexivity.
  - rewrite (dget_ddel streq streq_spec) by assumption. destruct (streq_spec b (lit "name")) as [->|]; [reflexivity|].
    destruct (streq_spec b (lit "code")) as [->|]; [exact E|]. destruct (streq_spec b (lit "type")) as [->|]; reflexivity.
Qed.
Theorem C75_language : forall langmap root x, first2 (lit "identity") (lit "language") (xkids root) = Some x -> NoDup (dkeys (xattrs x)) ->
  exists y, first2 (lit "identity") (lit "language") (xkids (fixdoc langmap root)) = Some y /\ (forall b, get y b = subtag_attr x b) /\
    xtext y = xtext x /\ xkids y = xkids x /\
    forall t, subtag_attr x (lit "type") = Some t ->
      xcomments y = [lit " name.en(" ++ t ++ lit ")=""" ++ (match langmap t with Some n => n | None => lit "Unknown" end) ++ lit """ "].
Proof.
  intros lm root x F N. unfold fixdoc. rewrite kids_kids, first2_identity by now left. rewrite first2_before, F by discriminate. cbn [option_map]. rewrite streq_refl.
  eexists. split; [reflexivity|]. assert (G : forall z b, get (name_comment lm z) b = get z b) by (intros [? ? ? c ?] b; unfold name_comment; cbn; now destruct c).
  split; [intros b; rewrite G; now apply subtag_get|]. split; [|split].
  - now destruct x.
  - now destruct x.
  - intros t T. unfold name_comment. replace (xcomments (fix_subtag x)) with (@nil pystr) by now destruct x. rewrite subtag_get, T by exact N.
    assert (C : forall z l, xcomments (set_comments z l) = l) by now intros []. rewrite C. reflexivity.
Qed.
Theorem C75_script : forall langmap root x, first2 (lit "identity") (lit "script") (xkids root) = Some x -> NoDup (dkeys (xattrs x)) ->
  exists y, first2 (lit "identity") (lit "script") (xkids (fixdoc langmap root)) = Some y /\ (forall b, get y b = subtag_attr x b) /\
    xtext y = xtext x /\ xkids y = xkids x /\ xcomments y = [].
Proof.
  intros lm root x F N. unfold fixdoc. rewrite kids_kids, first2_identity by now right. rewrite first2_before, F by discriminate. cbn [option_map].
  change (streq (lit "script") (lit "language")) with false. cbv iota. eexists. split; [reflexivity|]. split; [intros b; now apply subtag_get|]. now destruct x.
Qed.

(** ** Doing it again *)
Lemma upd_fuse t f g ks : keeps_tag f -> upd_first t g (upd_first t f ks) = upd_first t (fun x => g (f x)) ks.
Proof.
  intros K. induction ks as [|k ks IH]; [reflexivity|]. cbn [upd_first]. destruct (istag t k) eqn:E; cbn [upd_first].
  - unfold istag. rewrite K. fold (istag t k). now rewrite E.
  - now rewrite E, IH.
Qed.
Lemma upd2_fuse t1 t2 f g ks : keeps_tag f -> upd_first2 t1 t2 g (upd_first2 t1 t2 f ks) = upd_first2 t1 t2 (fun x => g (f x)) ks.
Proof.
  intros K. induction ks as [|k ks IH]; [reflexivity|]. cbn [upd_first2]. destruct (istag t1 k) eqn:E.
  - destruct (first t2 (xkids k)) as [y|] eqn:F; cbn [upd_first2].
    + unfold istag. rewrite tag_kids. fold (istag t1 k). rewrite E, kids_kids, first_upd_same, F by exact K. cbn [option_map]. now rewrite upd_fuse, kids_twice.
    + now rewrite E, F, IH.
  - cbn [upd_first2]. now rewrite E, IH.
Qed.
Lemma upd_ext t f g ks : (forall x, first t ks = Some x -> f x = g x) -> upd_first t f ks = upd_first t g ks.
Proof.
  unfold first. induction ks as [|k ks IH]; intros H; [reflexivity|]. cbn [upd_first find] in *. destruct (istag t k); [now rewrite H|]. f_equal. now apply IH.
Qed.
Lemma upd2_ext t1 t2 f g ks : (forall x, first2 t1 t2 ks = Some x -> f x = g x) -> upd_first2 t1 t2 f ks = upd_first2 t1 t2 g ks.
Proof.
  induction ks as [|k ks IH]; intros H; [reflexivity|]. cbn [upd_first2 first2] in *. destruct (istag t1 k).
  - destruct (first t2 (xkids k)) as [y|] eqn:F; [|f_equal; now apply IH]. f_equal. f_equal. apply upd_ext. intros x Fx. rewrite F in Fx. injection Fx as <-. now apply H.
  - f_equal. now apply IH.
Qed.
Lemma upd_comm t t' f g ks : t <> t' -> keeps_tag f -> keeps_tag g -> upd_first t f (upd_first t' g ks) = upd_first t' g (upd_first t f ks).
Proof.
  intros N Kf Kg. induction ks as [|k ks IH]; [reflexivity|]. cbn [upd_first]. destruct (istag t k) eqn:E, (istag t' k) eqn:E'; cbn [upd_first].
  - apply istag_true in E, E'. congruence.
  - unfold istag at 1 2. rewrite Kf. fold (istag t k) (istag t' k). now rewrite E, E'.
  - unfold istag at 1. rewrite Kg. fold (istag t k). now rewrite E, E'.
  - now rewrite E, E', IH.
Qed.
Lemma upd2_comm t1 t t' f g ks : t <> t' -> keeps_tag f -> keeps_tag g -> upd_first2 t1 t f (upd_first2 t1 t' g ks) = upd_first2 t1 t' g (upd_first2 t1 t f ks).
Proof.
  intros N Kf Kg. induction ks as [|k ks IH]; [reflexivity|]. cbn [upd_first2]. destruct (istag t1 k) eqn:E; cbn [upd_first2]; [|now rewrite E, IH].
  assert (T : forall l, istag t1 (set_kids k l) = true) by (intros l; unfold istag; rewrite tag_kids; exact E).
  destruct (first t (xkids k)) as [y|] eqn:F, (first t' (xkids k)) as [y'|] eqn:F'; cbn [upd_first2]; rewrite ?T, ?E, ?kids_kids, ?F, ?F'.
  - rewrite !first_upd_other, F, F' by congruence || assumption. rewrite !kids_twice. f_equal. f_equal. now apply upd_comm.
  - rewrite first_upd_other, F' by congruence || assumption. reflexivity.
  - rewrite first_upd_other, F by congruence || assumption. reflexivity.
  - now rewrite IH.
Qed.
Lemma all2_comm t1 t2 t3 f g ks : t1 <> lit "identity" -> upd_all2 t1 t2 f (upd_first2 (lit "identity") t3 g ks) = upd_first2 (lit "identity") t3 g (upd_all2 t1 t2 f ks).
Proof.
  intros N. unfold upd_all2. induction ks as [|k ks IH]; [reflexivity|]. cbn [upd_first2 map]. destruct (istag (lit "identity") k) eqn:E.
  - assert (E1 : istag t1 k = false) by (apply streq_false; apply istag_true in E; congruence). rewrite E1.
    assert (T : forall l, istag t1 (set_kids k l) = false) by (intros l; unfold istag; rewrite tag_kids; exact E1).
    cbn [upd_first2]. rewrite E. destruct (first t3 (xkids k)) eqn:F; cbn [map]; rewrite ?E1, ?T.
    + reflexivity.
    + now rewrite IH.
  - cbn [map upd_first2]. rewrite IH. destruct (istag t1 k) eqn:E1; [|now rewrite E].
    assert (T : forall l, istag (lit "identity") (set_kids k l) = false) by (intros l; unfold istag; rewrite tag_kids; exact E). now rewrite T.
Qed.
Lemma all2_idem t1 t2 f ks : keeps_tag f -> (forall x, f (f x) = f x) -> upd_all2 t1 t2 f (upd_all2 t1 t2 f ks) = upd_all2 t1 t2 f ks.
Proof.
  intros K I. unfold upd_all2. rewrite map_map. apply map_ext. intros k. destruct (istag t1 k) eqn:E; [|now rewrite E].
  unfold istag at 1. rewrite tag_kids. fold (istag t1 k). rewrite E, kids_kids, kids_twice. f_equal. rewrite map_map. apply map_ext. intros y.
  destruct (istag t2 y) eqn:E2; [|now rewrite E2]. unfold istag. rewrite K. fold (istag t2 y). now rewrite E2, I.
Qed.
Lemma ddel_absent (a : list (pystr * pystr)) b : dget streq a b = None -> ddel streq a b = a.
Proof.
  induction a as [|[k v] a IH]; intros H; [reflexivity|]. cbn [dget ddel] in *. destruct (streq b k) eqn:E; [discriminate|]. f_equal. now apply IH.
Qed.
Lemma subtag_idem x : NoDup (dkeys (xattrs x)) -> fix_subtag (fix_subtag x) = fix_subtag x.
Proof.
  intros N. pose proof (subtag_get x (lit "name") N) as A. pose proof (subtag_get x (lit "code") N) as B. change (subtag_attr x (lit "name")) with (@None pystr) in A. change (subtag_attr x (lit "code")) with (@None pystr) in B. unfold get in A, B.
  unfold fix_subtag at 1. rewrite (ddel_absent _ _ A). rewrite B. now destruct x.
Qed.
Lemma subtag_comments x c : fix_subtag (set_comments x c) = fix_subtag x.
Proof. now destruct x. Qed.
Lemma name_subtag lm x : NoDup (dkeys (xattrs x)) -> name_comment lm (fix_subtag (name_comment lm (fix_subtag x))) = name_comment lm (fix_subtag x).
Proof.
  intros N. assert (E : fix_subtag (name_comment lm (fix_subtag x)) = fix_subtag x); [|now rewrite E].
  unfold name_comment at 1. destruct (xcomments (fix_subtag x)); rewrite ?subtag_comments; now apply subtag_idem.
Qed.
(** A repaired document stays as it is when repaired again *)
Theorem C75_idempotent : forall langmap root,
  (forall t, In t ["orientation"; "status"; "regionInfo"]%string -> List.length (sel (only (lit t)) (xkids root)) <= 1)%nat ->
  (forall t x, t <> lit "special" -> first2 (lit "identity") t (xkids root) = Some x -> NoDup (dkeys (xattrs x))) ->
  fixdoc langmap (fixdoc langmap root) = fixdoc langmap root.
Proof.
  intros lm root One W. assert (G : forall t, In t ["orientation"; "status"; "regionInfo"]%string -> first (lit t) (xkids (fixdoc lm root)) = None).
  { intros t I. rewrite first_head, (C75_gone lm root t I). specialize (One t I). destruct (sel (only (lit t)) (xkids root)) as [|a [|b l]]; try reflexivity. cbn in One. lia. }
  unfold fixdoc at 1. set (d := fixdoc lm root) in *.
  assert (O : fix_orientation (xkids d) = xkids d) by (unfold fix_orientation; now rewrite (G "orientation"%string) by (cbn; tauto)).
  assert (S : fix_status (xkids d) = xkids d) by (unfold fix_status; now rewrite (G "status"%string) by (cbn; tauto)).
  assert (F0 : forall t1 t2 ks, first t1 ks = None -> first2 t1 t2 ks = None).
  { intros t1 t2 ks. unfold first. induction ks as [|k ks IH]; intros F; [reflexivity|]. cbn [find first2] in *. destruct (istag t1 k); [discriminate|now apply IH]. }
  assert (R : fix_region (xkids d) = xkids d).
  { unfold fix_region. rewrite F0 by (apply (G "regionInfo"%string); cbn; tauto). apply no_first_remove. apply (G "regionInfo"%string). cbn; tauto. }
  rewrite O, S, R. unfold d, fixdoc. rewrite kids_kids, kids_twice. f_equal.
  set (ks := fix_region (fix_status (fix_orientation (xkids root)))).
  assert (Wk : forall t x, t = lit "language" \/ t = lit "script" -> first2 (lit "identity") t ks = Some x -> NoDup (dkeys (xattrs x))).
  { intros t x T F. unfold ks in F. rewrite first2_before in F by (destruct T; subst; discriminate). apply (W t x); [destruct T; subst; discriminate|exact F]. }
  clearbody ks. revert Wk. clear. intros W.
  set (I := lit "identity"). set (Lg := lit "language"). set (Sc := lit "script").
  set (A := upd_all2 (lit "characters") (lit "exemplarCharacters") (fun e => set_comments e [])).
  assert (Def : forall l, fix_identity lm l = A (upd_first2 I Sc fix_subtag (upd_first2 I Lg (fun x => name_comment lm (fix_subtag x)) l))).
  { intros l. unfold fix_identity. fold I Lg Sc. fold A. unfold A at 1. rewrite <- all2_comm by discriminate. fold A. f_equal.
    rewrite upd2_comm by (apply keeps_name || apply keeps_subtag || discriminate). f_equal. apply upd2_fuse. apply keeps_subtag. }
  rewrite !Def.
  assert (C : forall t g l, upd_first2 I t g (A l) = A (upd_first2 I t g l)) by (intros; symmetry; apply all2_comm; discriminate).
  assert (KN : keeps_tag (fun x => name_comment lm (fix_subtag x))) by (intros x; now rewrite keeps_name, keeps_subtag).
  rewrite !C. unfold A at 1. unfold A at 1. rewrite all2_idem; [|intros x; apply tag_comments|now intros []]. fold A. f_equal.
  rewrite (upd2_comm I Lg Sc) by (assumption || apply keeps_subtag || discriminate).
  rewrite !upd2_fuse by (assumption || apply keeps_subtag).
  rewrite (upd2_ext I Lg (fun x => name_comment lm (fix_subtag (name_comment lm (fix_subtag x)))) (fun x => name_comment lm (fix_subtag x)) ks).
  - apply upd2_ext. intros x F. rewrite first2_upd2_other in F by (assumption || discriminate). apply subtag_idem. apply (W Sc); [now right|exact F].
  - intros x F. apply name_subtag. apply (W Lg); [now left|exact F].
Qed.
(** ** What else is kept *)
Theorem C75_orientation_rest : forall o, xtag (orient_kept o) = xtag o /\ xattrs (orient_kept o) = xattrs o /\
  let other s := (negb (streq s (lit "characterOrder")) && negb (streq s (lit "lineOrder")))%bool in
  sel other (xkids (orient_kept o)) = sel other (xkids o).
Proof.
  assert (D : forall t v o, xattrs (drop_default t v o) = xattrs o /\ forall q, q t = false -> sel q (xkids (drop_default t v o)) = sel q (xkids o)).
  { intros t v [a b c d k]. unfold drop_default. cbn [xkids]. destruct (first t k) as [y|]; [|auto]. destruct (xtext y) as [s|]; [|auto]. destruct (streq s v); [|auto].
    split; [reflexivity|]. intros q Q. cbn [set_kids xkids]. now rewrite sel_remove, Q. }
  intros o. split; [apply keeps_orient|]. unfold orient_kept. split.
  - now rewrite (proj1 (D _ _ _)), (proj1 (D _ _ _)).
  - cbv zeta. rewrite (proj2 (D _ _ _)) by (rewrite streq_refl; apply andb_false_r). now rewrite (proj2 (D _ _ _)).
Qed.
(** The rest of the identity *)
Definition id_other (s : pystr) : bool := negb (streq s (lit "special") || streq s (lit "language") || streq s (lit "script")).
Definition id_rest (ks : list xel) := match first (lit "identity") ks with Some i => Some (xattrs i, xtext i, sel id_other (xkids i)) | None => None end.
Lemma rest_only ks ks' : sel (only (lit "identity")) ks = sel (only (lit "identity")) ks' -> id_rest ks = id_rest ks'.
Proof. intros E. unfold id_rest. now rewrite (first_only _ _ _ E). Qed.
Lemma rest_sil a v ks r : id_rest ks = Some r -> id_rest (add_sil a v ks) = Some r.
Proof.
  unfold id_rest, add_sil. destruct (first (lit "identity") ks) as [i|] eqn:F; [|discriminate]. intros E. rewrite first_upd_same, F by apply keeps_sil. cbn [option_map]. rewrite <- E.
  unfold sil_in. destruct i as [t at_ tx c k]. cbn [xkids]. destruct (first2 (lit "special") silid k); cbn [set_kids xattrs xtext xkids].
  - now rewrite sel_upd2.
  - rewrite sel_app. cbn [sel filter xtag]. change (id_other (lit "special")) with false. cbv iota. now rewrite app_nil_r.
Qed.
Lemma rest_upd2 t f ks : keeps_tag f -> id_other t = false -> id_rest (upd_first2 (lit "identity") t f ks) = id_rest ks.
Proof.
  intros K N. unfold id_rest. rewrite !first_head. rewrite sel_upd2. change (only (lit "identity") (lit "identity")) with true. cbv iota.
  pose proof (sel_Forall (lit "identity") ks) as A. destruct (sel (only (lit "identity")) ks) as [|i l]; [reflexivity|]. inversion A as [|? ? A1 A2]; subst.
  cbn [upd_first2]. rewrite A1. destruct (first t (xkids i)); [|reflexivity]. cbn [hd_error]. destruct i as [? ? ? ? k]. cbn [set_kids xattrs xtext xkids]. now rewrite sel_upd, N.
Qed.
Theorem C75_identity_rest : forall langmap root r, id_rest (xkids root) = Some r -> id_rest (xkids (fixdoc langmap root)) = Some r.
Proof.
  intros lm root r E. unfold fixdoc. rewrite kids_kids. unfold fix_identity. rewrite rest_upd2 by (apply keeps_name || reflexivity).
  match goal with |- context [id_rest (upd_all2 ?a1 ?a2 ?a3 ?l)] => rewrite (rest_only (upd_all2 a1 a2 a3 l) l) by (now rewrite sel_all2) end.
  rewrite !rest_upd2 by (apply keeps_subtag || reflexivity).
  assert (O : id_rest (fix_orientation (xkids root)) = Some r) by (rewrite <- E; apply rest_only; now rewrite sel_orientation).
  revert O. generalize (fix_orientation (xkids root)). intros ks O.
  assert (S : id_rest (fix_status ks) = Some r).
  { unfold fix_status. destruct (first (lit "status") ks) as [s|]; [|exact O].
    assert (R : id_rest (remove_first (lit "status") ks) = Some r) by (rewrite <- O; apply rest_only; now rewrite sel_remove).
    destruct (get s (lit "value")) as [v|]; [|exact R].
    assert (A : forall l, id_rest (upd_all2 (lit "characters") (lit "exemplarCharacters") undraft l) = id_rest l) by (intros l; apply rest_only; now rewrite sel_all2).
    destruct (streq v (lit "HOLD")), (streq v (lit "Draft")); cbn [orb]; rewrite ?A; try apply rest_sil; exact R. }
  unfold fix_region. match goal with |- context [id_rest (remove_first ?a1 ?l)] => rewrite (rest_only (remove_first a1 l) l) by (now rewrite sel_remove) end.
  destruct (first2 _ _ _); [|exact S]. destruct (dget streq regionmap _); [|exact S]. now apply rest_sil.
Qed.

(** ** What fails *)
(** a second orientation stays at the top, and a third *)
Theorem C75_second_refuted : exists root, forall langmap,
  exists o, In o (xkids (fixdoc langmap root)) /\ xtag o = lit "orientation".
Proof.
  exists (X (lit "ldml") [] None [] [X (lit "orientation") [] None [] []; X (lit "orientation") [] None [] []]).
  intros lm. exists (X (lit "orientation") [] None [] []). vm_compute. auto.
Qed.
(** a document for Guinea gets the code of Guinea-Bissau *)
Theorem C75_guinea_refuted : forall langmap, exists root, region_of (xkids root) = Some (lit "Guinea") /\
  silattr (xkids (fixdoc langmap root)) (lit "defaultRegion") = Some (lit "GW").
Proof.
  intros lm. exists (X (lit "ldml") [] None [] [X (lit "regionInfo") [] None [] [X (lit "region") [(lit "type", lit "Guinea")] None [] []]]).
  now vm_compute.
Qed.
(** with --debug no document gets through *)
Theorem C75_debug : forall langmap root, doit true langmap root = Raise TypeError /\ doit false langmap root = Ok (fixdoc langmap root).
Proof. split; reflexivity. Qed.

(** A held document, in full *)
Local Open Scope string_scope.
Definition sample : xel := X (lit "ldml") [] None []
  [X (lit "identity") [] None [] [X (lit "version") [(lit "number", lit "1")] None [] [];
     X (lit "language") [(lit "code", lit "aa"); (lit "name", lit "Afar")] None [lit "old"] []; X (lit "script") [(lit "type", lit "Latn")] None [lit "x"] []];
   X (lit "orientation") [] None [] [X (lit "characterOrder") [] (Some (lit "right-to-left")) [] []; X (lit "lineOrder") [] (Some (lit "top-to-bottom")) [] []];
   X (lit "status") [(lit "value", lit "HOLD")] None [] [];
   X (lit "regionInfo") [] None [] [X (lit "region") [(lit "type", lit "Ethiopia")] None [] []];
   X (lit "characters") [] None [] [X (lit "exemplarCharacters") [] (Some (lit "[a b]")) [lit "c"] []];
   X (lit "dates") [] None [] []].
Example C75_ex : fixdoc (fun _ => Some (lit "Afar")) sample = X (lit "ldml") [] None []
  [X (lit "identity") [] None [] [X (lit "version") [(lit "number", lit "1")] None [] [];
     X (lit "language") [(lit "type", lit "aa")] None [lit " name.en(aa)=" ++ [34%N] ++ lit "Afar" ++ [34%N] ++ lit " "]%list []; X (lit "script") [(lit "type", lit "Latn")] None [] [];
     X (lit "special") [] None [] [X silid [(lit "usage", lit "unused"); (lit "defaultRegion", lit "ET")] None [] []]];
   X (lit "characters") [] None [] [X (lit "exemplarCharacters") [(lit "draft", lit "unconfirmed")] (Some (lit "[a b]")) [] []];
   X (lit "dates") [] None [] [];
   X (lit "layout") [] None [] [X (lit "orientation") [] None [] [X (lit "characterOrder") [] (Some (lit "right-to-left")) [] []]]].
Proof. vm_compute. reflexivity. Qed.
Example C75_hyps : (forall t, In t ["orientation"; "status"; "regionInfo"] -> List.length (sel (only (lit t)) (xkids sample)) <= 1)%nat /\
  (forall x, first2 (lit "identity") (lit "language") (xkids sample) = Some x -> NoDup (dkeys (xattrs x))) /\ id_rest (xkids sample) <> None.
Proof.
  split; [|split].
  - intros t [<-|[<-|[<-|[]]]]; vm_compute; auto.
  - intros x E. injection E as <-. repeat constructor; vm_compute; intros H; repeat destruct H as [H|H]; discriminate || exact H.
  - vm_compute. discriminate.
Qed.
