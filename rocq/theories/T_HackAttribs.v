(** C92: adding draft levels to a schema. *)
From Coq Require Import String Lia.
From Verif Require Import Py PyFacts M_HackAttribs.
Local Open Scope list_scope.

(** * Specification *)
Definition newline : N := 10%N.
(** a line declares drafts if the words stand in it *)
Definition declares (l : pystr) : Prop := exists a b, l = a ++ lit "attribute draft" ++ b.
(** a file: complete lines, and what stands behind the last newline *)
Definition file_of (ls : list pystr) (end_ : pystr) : pystr := flat_map (fun l => l ++ [newline]) ls ++ end_.
Definition lines_ok (ls : list pystr) (end_ : pystr) : Prop := (forall l, In l ls -> ~ In newline l) /\ ~ In newline end_.
(** the lines with the new one behind each that declares drafts *)
Inductive patched (new : pystr) : list pystr -> list pystr -> Prop :=
| pa_nil : patched new [] []
| pa_yes l ls ls' : declares l -> patched new ls ls' -> patched new (l :: ls) (l :: new :: ls')
| pa_no l ls ls' : ~ declares l -> patched new ls ls' -> patched new (l :: ls) (l :: ls').
Definition new_line : pystr :=
  lit "    " ++ [34%N] ++ lit "proposed" ++ [34%N] ++ lit " | " ++ [34%N] ++ lit "tentative" ++ [34%N] ++ lit " | " ++
  [34%N] ++ lit "generated" ++ [34%N] ++ lit " | " ++ [34%N] ++ lit "suspect" ++ [34%N] ++ lit " |".

(** * Proof *)
Lemma prefix_iff (x l : pystr) : (exists r, strip_prefix x l = Some r) <-> exists b, l = x ++ b.
Proof.
  revert l. induction x as [|c x IH]; intros l; cbn [strip_prefix].
  - split; intros _; [now exists l|now exists l].
  - destruct l as [|d l]; [split; [intros (r & H); discriminate|intros (b & H); discriminate]|].
    destruct (N.eqb_spec c d) as [->|H].
    + rewrite IH. split; intros (b & E); exists b; [now rewrite E|now injection E].
    + split; [intros (r & E); discriminate|]. intros (b & E). injection E as E _. congruence.
Qed.
Lemma has_spec l : has_sub mark l = true <-> declares l.
Proof.
  unfold declares. change (lit "attribute draft") with mark. induction l as [|c l IH].
  - split; [intro H; vm_compute in H; discriminate|]. intros (a & b & E). destruct a; discriminate.
  - cbn [has_sub]. destruct (strip_prefix mark (c :: l)) as [r|] eqn:E.
    + split; [intros _|reflexivity]. destruct (proj1 (prefix_iff mark (c :: l)) (ex_intro _ r E)) as (b & ->). now exists [], b.
    + rewrite IH. split; [intros (a & b & ->); now exists (c :: a), b|]. intros ([|x a] & b & Ea).
      * destruct (proj2 (prefix_iff mark (c :: l)) (ex_intro _ b Ea)) as (r & Er). congruence.
      * cbn in Ea. injection Ea as -> ->. now exists a, b.
Qed.
Lemma read_line l : forall acc s, ~ In newline l -> readlines acc (l ++ newline :: s) = (acc ++ l ++ [newline]) :: readlines [] s.
Proof.
  induction l as [|c l IH]; intros acc s H; [reflexivity|]. cbn [app readlines].
  destruct (N.eqb_spec c 10) as [->|Hc]; [exfalso; apply H; now left|]. rewrite IH by (intro; apply H; now right). now rewrite <- app_assoc.
Qed.
Lemma read_end l : forall acc, ~ In newline l -> readlines acc l = match acc ++ l with [] => [] | x => [x] end.
Proof.
  induction l as [|c l IH]; intros acc H; cbn [readlines]; [rewrite app_nil_r; now destruct acc|].
  destruct (N.eqb_spec c 10) as [->|Hc]; [exfalso; apply H; now left|]. rewrite IH by (intro; apply H; now right). now rewrite <- app_assoc.
Qed.
Lemma read_file ls end_ : lines_ok ls end_ ->
  readlines [] (file_of ls end_) = map (fun l => l ++ [newline]) ls ++ match end_ with [] => [] | x => [x] end.
Proof.
  intros [H He]. unfold file_of. induction ls as [|l ls IH]; [cbn [flat_map app map]; rewrite read_end by exact He; now destruct end_|]. cbn [flat_map map]. rewrite <- !app_assoc. cbn [app].
  rewrite read_line by (apply H; now left). cbn [app]. rewrite IH; [reflexivity|]. intros x Hx. apply H. now right.
Qed.
Lemma declares_nl l : declares (l ++ [newline]) <-> declares l.
Proof.
  split; intros (a & b & E).
  - destruct b as [|x b _] using rev_ind.
    + rewrite app_nil_r in E. exfalso. change (lit "attribute draft") with (lit "attribute draf" ++ lit "t") in E. rewrite app_assoc in E.
      apply app_inj_tail in E as [_ E]. discriminate.
    + rewrite !app_assoc in E. apply app_inj_tail in E as [-> _]. exists a, b. now rewrite <- app_assoc.
  - exists a, (b ++ [newline]). rewrite E, <- !app_assoc. reflexivity.
Qed.
Lemma levels_eq : levels = new_line ++ [newline].
Proof. reflexivity. Qed.
Lemma new_no_newline : ~ In newline new_line.
Proof. intro H. vm_compute in H. intuition discriminate. Qed.
Lemma new_plain : ~ declares new_line.
Proof. rewrite <- has_spec. vm_compute. discriminate. Qed.
Definition patch (ls : list pystr) : list pystr := flat_map (fun l => if has_sub mark l then [l; new_line] else [l]) ls.
Lemma patch_spec ls : patched new_line ls (patch ls).
Proof.
  unfold patch. induction ls as [|l ls IH]; cbn [flat_map]; [constructor|]. destruct (has_sub mark l) eqn:E; cbn [app]; constructor; try exact IH.
  - now apply has_spec.
  - rewrite <- has_spec. congruence.
Qed.
Lemma has_nl l : has_sub mark (l ++ [newline]) = has_sub mark l.
Proof. apply eq_true_iff_eq. rewrite !has_spec. apply declares_nl. Qed.
Lemma hack_eq ls end_ : lines_ok ls end_ -> hack (file_of ls end_) = file_of (patch ls) (if has_sub mark end_ then end_ ++ levels else end_).
Proof.
  intros H. unfold hack. rewrite (read_file ls end_ H), flat_map_app. unfold file_of. f_equal.
  - clear H. unfold patch. induction ls as [|l ls IH]; [reflexivity|]. cbn [map flat_map]. rewrite IH, has_nl, flat_map_app. f_equal.
    destruct (has_sub mark l); cbn [flat_map]; [|now rewrite app_nil_r]. rewrite levels_eq, app_nil_r. reflexivity.
  - destruct end_ as [|c e]; [reflexivity|]. cbn [flat_map]. now rewrite app_nil_r.
Qed.
Lemma patch_ok ls end_ : lines_ok ls end_ -> forall l, In l (patch ls) -> ~ In newline l.
Proof.
  intros [H _] l Hl. unfold patch in Hl. apply in_flat_map in Hl as (x & Hx & Hl). destruct (has_sub mark x).
  - destruct Hl as [<-|[<-|[]]]; [now apply H|exact new_no_newline].
  - destruct Hl as [<-|[]]. now apply H.
Qed.

(** ** C92: every file is lines and an end in one way *)
Theorem C92_lines : forall s, exists ls end_, lines_ok ls end_ /\ s = file_of ls end_ /\
  forall ls' end', lines_ok ls' end' -> s = file_of ls' end' -> ls' = ls /\ end' = end_.
Proof.
  assert (forall s, exists ls end_, lines_ok ls end_ /\ s = file_of ls end_) as Ex.
  { induction s as [|c s (ls & e & [H He] & ->)]; [exists [], []; split; [split; [intros ? []|intros []]|reflexivity]|].
    destruct (N.eqb_spec c 10) as [->|Hc].
    - exists ([] :: ls), e. split; [|reflexivity]. split; [|exact He]. intros l [<-|Hl]; [intros []|now apply H].
    - destruct ls as [|l ls].
      + exists [], (c :: e). split; [|reflexivity]. split; [intros ? []|]. intros [E|E]; [now apply Hc|now apply He].
      + exists ((c :: l) :: ls), e. split; [|reflexivity]. split; [|exact He]. intros x [<-|Hx]; [|apply H; now right].
        intros [E|E]; [now apply Hc|]. apply (H l); [now left|exact E]. }
  assert (forall ls e ls' e', lines_ok ls e -> lines_ok ls' e' -> file_of ls e = file_of ls' e' -> ls' = ls /\ e' = e) as Un.
  { intros ls e ls' e' H H' E.
    assert (forall l (e : pystr), ~ In newline e -> forall k, l ++ newline :: k <> e) as Cut.
    { intros l x Hx k Ek. apply Hx. rewrite <- Ek, in_app_iff. right. now left. }
    assert (forall l l' a b, ~ In newline l -> ~ In newline l' -> l ++ newline :: a = l' ++ newline :: b -> l = l' /\ a = b) as Two.
    { clear. induction l as [|c l IH]; intros [|d l'] a b Hl Hl' E; cbn in E.
      - injection E as ->. auto.
      - injection E as E0 _. exfalso. apply Hl'. now left.
      - injection E as E0 _. exfalso. apply Hl. now left.
      - injection E as -> E. destruct (IH l' a b) as [-> ->]; [intro; apply Hl; now right|intro; apply Hl'; now right|exact E|auto]. }
    revert ls' H' E. induction ls as [|l ls IH]; intros [|l' ls'] H' E.
    - split; [reflexivity|]. unfold file_of in E. cbn in E. congruence.
    - exfalso. unfold file_of in E. cbn [flat_map app] in E. rewrite <- !app_assoc in E. cbn [app] in E. symmetry in E. revert E. apply Cut. apply H.
    - exfalso. unfold file_of in E. cbn [flat_map app] in E. rewrite <- !app_assoc in E. cbn [app] in E. revert E. apply Cut. apply H'.
    - unfold file_of in E. cbn [flat_map] in E. rewrite <- !app_assoc in E. cbn [app] in E.
      destruct H as [H He], H' as [H' He']. apply Two in E as [-> E]; [|apply H; now left|apply H'; now left].
      destruct (IH (conj (fun x Hx => H x (or_intror Hx)) He) ls' (conj (fun x Hx => H' x (or_intror Hx)) He') E) as [-> ->]. auto. }
  intros s. destruct (Ex s) as (ls & e & H & ->). exists ls, e. split; [exact H|]. split; [reflexivity|]. intros ls' e' H' E. now apply Un.
Qed.

(** ** C92: the script keeps every line and puts the new one behind each that declares drafts *)
Theorem C92_patched : forall infile outfile files ls end_, infile <> outfile ->
  dget streq files infile = Some (file_of ls end_) -> lines_ok ls end_ -> ~ declares end_ ->
  exists ls' files', patched new_line ls ls' /\ run infile outfile files = (files', true) /\
    dget streq files' outfile = Some (file_of ls' end_) /\
    forall f, f <> outfile -> dget streq files' f = dget streq files f.
Proof.
  intros i o files ls e Ne Hi Ok He. unfold run. rewrite (dget_dset_other _ streq_spec) by congruence. rewrite Hi.
  exists (patch ls), (dset streq (dset streq files o []) o (hack (file_of ls e))). split; [apply patch_spec|]. split; [reflexivity|]. split.
  - rewrite (dget_dset_same _ streq_spec), (hack_eq _ _ Ok). destruct (has_sub mark e) eqn:E; [|reflexivity]. exfalso. now apply He, has_spec.
  - intros f Hf. now rewrite !(dget_dset_other _ streq_spec) by congruence.
Qed.
(** in a last line without newline that declares drafts the new one is added to the same line *)
Theorem C92_last_line_refuted : forall ls end_, lines_ok ls end_ -> declares end_ ->
  exists ls', patched new_line ls ls' /\ hack (file_of ls end_) = file_of (ls' ++ [end_ ++ new_line]) [].
Proof.
  intros ls e Ok He. exists (patch ls). split; [apply patch_spec|]. rewrite (hack_eq _ _ Ok). apply has_spec in He. rewrite He.
  unfold file_of. rewrite flat_map_app. cbn [flat_map]. rewrite !app_nil_r, levels_eq, <- !app_assoc. reflexivity.
Qed.
(** ** C92: each run adds the line once more *)
Theorem C92_twice_refuted : forall ls end_, lines_ok ls end_ -> ~ declares end_ -> (exists l, In l ls /\ declares l) ->
  length (hack (file_of ls end_)) < length (hack (hack (file_of ls end_))).
Proof.
  intros ls e Ok He (l & Hl & Hd). rewrite (hack_eq _ _ Ok).
  assert (has_sub mark e = false) as Ee by (destruct (has_sub mark e) eqn:E; [exfalso; now apply He, has_spec|reflexivity]). rewrite Ee.
  rewrite (hack_eq (patch ls) e) by (split; [now apply (patch_ok ls e)|apply Ok]). rewrite Ee. unfold file_of. rewrite !app_length.
  apply Nat.add_lt_mono_r. 
  assert (forall ls, length (flat_map (fun l => l ++ [newline]) ls) <= length (flat_map (fun l => l ++ [newline]) (patch ls))) as Le.
  { intros k. unfold patch. induction k as [|x k IH]; [cbn; lia|]. cbn [flat_map]. rewrite flat_map_app, !app_length.
    destruct (has_sub mark x); cbn [flat_map]; rewrite !app_length; cbn [length]; lia. }
  assert (In l (patch ls)) as Hp.
  { unfold patch. apply in_flat_map. exists l. split; [exact Hl|]. destruct (has_sub mark l); now left. }
  revert Hp. generalize (patch ls). clear -Hd Le. intros k. induction k as [|x k IH]; [intros []|]. unfold patch. intros [->|H]; cbn [flat_map]; rewrite flat_map_app, !app_length.
  - apply has_spec in Hd. rewrite Hd. cbn [flat_map]. rewrite !app_length. specialize (Le k). unfold patch in Le. cbn [length]. lia.
  - specialize (IH H). unfold patch in IH. destruct (has_sub mark x); cbn [flat_map]; rewrite !app_length; cbn [length]; lia.
Qed.
(** ** C92: with the same file for input and output everything is lost *)
Theorem C92_same_file_refuted : forall f files, exists files', run f f files = (files', true) /\ dget streq files' f = Some [].
Proof.
  intros f files. unfold run. rewrite (dget_dset_same _ streq_spec). eexists. split; [reflexivity|]. now rewrite (dget_dset_same _ streq_spec).
Qed.
(** and a missing input still empties the output *)
Theorem C92_missing_refuted : forall i o files, i <> o -> dget streq files i = None ->
  exists files', run i o files = (files', false) /\ dget streq files' o = Some [].
Proof.
  intros i o files Ne H. unfold run. rewrite (dget_dset_other _ streq_spec) by congruence. rewrite H. eexists. split; [reflexivity|].
  now rewrite (dget_dset_same _ streq_spec).
Qed.

(** * The hypotheses are met *)
Definition ex_rnc : list pystr := [lit "attlist.x &="; lit "   attribute draft {"; lit "   }?"].
Example C92_met : lines_ok ex_rnc [] /\ ~ declares [] /\ (exists l, In l ex_rnc /\ declares l) /\
  dget streq [(lit "a", file_of ex_rnc [])] (lit "a") = Some (file_of ex_rnc []) /\
  hack (file_of ex_rnc []) = file_of [lit "attlist.x &="; lit "   attribute draft {"; new_line; lit "   }?"] [].
Proof.
  split.
  { split; [|intros []]. intros l Hl Hn. cbn [In ex_rnc] in Hl. destruct Hl as [<-|[<-|[<-|[]]]]; vm_compute in Hn; intuition discriminate. }
  split; [rewrite <- has_spec; vm_compute; discriminate|].
  split; [exists (lit "   attribute draft {"); split; [right; now left|apply has_spec; reflexivity]|]. split; vm_compute; reflexivity.
Qed.
