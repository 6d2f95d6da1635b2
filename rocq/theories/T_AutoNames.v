(** C87: searching below an element, and filling in missing names. *)
From Coq Require Import String.
From Verif Require Import Py PyFacts M_LdmlBase M_Collation M_Serialize M_Normalise M_Drafts M_Paths M_AutoNames.
From Verif Require Import T_Drafts T_Paths T_PathText T_Ensure T_Keymans.
Local Open Scope list_scope.
Local Open Scope nat_scope.

(** * Specification *)
(** every element has a name, as in every document that can be read *)
Definition named (root : lnode) : Prop := forall q x, at_place root q = Some x -> ltag x <> [].
(** a path with two slashes, in its middle or at its end *)
Definition two_slashes (path : pystr) : Prop := exists a b, path = a ++ [47; 47]%N ++ b.

(** * Proof *)
Lemma split_head a b : exists x l, split_on 47%N (a ++ 47%N :: b) = x :: l /\ exists pre, split_on 47%N (a ++ 47%N :: b) = pre ++ split_on 47%N b /\ pre <> [].
Proof.
  induction a as [|c a IH].
  - exists [], (split_on 47%N b). split; [reflexivity|]. exists [[]]. split; [reflexivity|discriminate].
  - destruct IH as (x & l & E & pre & E2 & Np). cbn [app split_on]. destruct (N.eqb c 47) eqn:Ec.
    + exists [], (split_on 47%N (a ++ 47%N :: b)). split; [reflexivity|]. exists ([] :: pre). rewrite E2. split; [reflexivity|discriminate].
    + rewrite E. exists (c :: x), l. split; [reflexivity|]. destruct pre as [|y pre]; [congruence|].
      exists ((c :: y) :: pre). rewrite E2 in E. cbn in E. injection E as <- <-. split; [reflexivity|discriminate].
Qed.
Lemma empty_part path : two_slashes path -> In [] (split_on 47%N path).
Proof.
  intros (a & b & ->). destruct (split_head a (47%N :: b)) as (_ & _ & _ & pre & E & _).
  change ([47; 47]%N ++ b) with (47%N :: 47%N :: b). rewrite E. apply in_app_iff. right. cbn. now left.
Qed.
Lemma read_empty ws ns l steps : In [] l -> read_steps ws ns l = Ok steps -> In ([], []) steps.
Proof.
  revert steps. induction l as [|s l IH]; intros steps Hin H; [destruct Hin|]. cbn [read_steps] in H.
  destruct (read_step ws ns s) as [x|] eqn:Ex; [|discriminate]. cbn [bind] in H.
  destruct (read_steps ws ns l) as [xs|] eqn:Exs; [|discriminate]. cbn [bind] in H. injection H as <-.
  destruct Hin as [->|Hin]; [left|right; now apply IH]. cbn in Ex. congruence.
Qed.
Lemma no_child root curr : named root -> flat_map (matching_kids root ([], [])) curr = [].
Proof.
  intro Nm. induction curr as [|p curr IH]; [reflexivity|]. cbn [flat_map]. rewrite IH, app_nil_r.
  unfold matching_kids. destruct (at_place root p) as [n|] eqn:Ep; [|reflexivity].
  destruct (filter _ _) as [|[i c] l] eqn:Ef; [reflexivity|]. exfalso.
  assert (In (i, c) (filter (fun ic : nat * lnode => step_match ([], []) (snd ic))
            (combine (seq 0 (List.length (lkids n))) (lkids n)))) as Hin by (rewrite Ef; now left).
  apply filter_In in Hin as [Hin M]. apply in_items in Hin.
  apply (Nm (p ++ [K i]) c); [rewrite at_place_app, Ep; cbn; now rewrite Hin|].
  unfold step_match in M. cbn in M. apply andb_true_iff in M as [M _]. now apply streq_true in M.
Qed.

Section Proof.
  Variable ws : N -> bool.
  Variable hasher : pystr -> Z.
  Variable m : meta.
  Variable useDrafts : bool.
  Variable ud uid : option pystr.

  Lemma unify_lost dd ns d alt steps root : named root -> In ([], []) steps -> forall curr parent,
    unify hasher m dd useDrafts ud uid ns false None d alt None steps root curr parent = Ok (root, []).
  Proof.
    intros Nm. induction steps as [|st steps IH]; intros Hin curr parent; [destruct Hin|]. cbn [unify].
    destruct Hin as [->|Hin].
    - change (streq (fst ([], [])) (lit ".")) with false. cbv iota. rewrite no_child by assumption. now destruct steps.
    - set (new := if streq (fst st) (lit ".") then curr else flat_map (matching_kids root st) curr).
      destruct steps as [|s steps]; [destruct Hin|]. destruct new as [|p new']; [reflexivity|now apply IH].
  Qed.

  (** ** C87: a path with two slashes finds nothing in any document *)
  Theorem C87_descendants : forall dd ns root base path steps, named root -> two_slashes path ->
    read_path ws ns path = Ok steps ->
    findall ws hasher m dd useDrafts ud uid ns root base path = Ok (root, []) /\
    find ws hasher m dd useDrafts ud uid ns root base path = Ok (root, None).
  Proof.
    intros dd ns root base path steps Nm T R.
    assert (findall ws hasher m dd useDrafts ud uid ns root base path = Ok (root, [])) as E.
    { unfold findall, ensure_path, process_path. rewrite R. cbn [bind negb].
      rewrite unify_lost; [reflexivity|assumption|].
      unfold read_path in R. destruct (startswith (lit "/") path); [discriminate|].
      eapply read_empty; [apply empty_part; exact T|exact R]. }
    split; [exact E|]. unfold find. rewrite E. reflexivity.
  Qed.

  Lemma identity_read ns : exists steps, read_path ws ns identity_path = Ok steps.
  Proof. eexists. reflexivity. Qed.
  (** ** C87: so the source of a document, which the coverage report shows, is never found *)
  Theorem C87_source_refuted : forall dd ns root, named root ->
    find ws hasher m dd useDrafts ud uid ns root [] (lit ".//sil:identity") = Ok (root, None).
  Proof.
    intros dd ns root Nm. destruct (C87_descendants dd ns root [] (lit ".//sil:identity") [(reverse_localns ns (lit "."), []); (reverse_localns ns [], []); (reverse_localns ns (lit "sil:identity"), [])] Nm) as [_ H]; [|reflexivity|exact H].
    exists (lit "."), (lit "sil:identity"). reflexivity.
  Qed.

  Variable F : Type.
  Variable load : F -> res (pystr * list (pystr * pystr) * lnode).
  Variable save : pystr * list (pystr * pystr) * lnode -> F.
  Variable norm : lnode -> lnode.
  Variable lookup : pystr -> option tagset.
  Variable chars_of : pystr -> res (list N).
  Notation autonames := (autonames ws hasher m useDrafts ud uid F load save norm lookup chars_of).

  (** ** C87: no name is filled in: whatever the documents lack and the tags know, every file stays
      as it is, and the only errors are files that are missing or cannot be read *)
  Theorem C87_nothing_refuted : forall paths files,
    (forall p c dd ns root, dget streq files p = Some c -> load c = Ok (dd, ns, root) -> named root) ->
    fst (autonames paths files) = files /\
    ((forall p, In p paths -> exists c d, dget streq files p = Some c /\ load c = Ok d) ->
     snd (autonames paths files) = None).
  Proof.
    intros paths files H. induction paths as [|f paths IH]; cbn [M_AutoNames.autonames]; [split; reflexivity|].
    destruct (dget streq files f) as [c|] eqn:Ef.
    2: { split; [reflexivity|]. intro A. destruct (A f (or_introl eq_refl)) as (c & d & E & _). congruence. }
    destruct (load c) as [[[dd ns] root]|e] eqn:El.
    2: { split; [reflexivity|]. intro A. destruct (A f (or_introl eq_refl)) as (c' & d & E & E'). congruence. }
    assert (do_doc ws hasher m useDrafts ud uid norm lookup chars_of dd ns f root = Ok None) as ->.
    { unfold do_doc. destruct (only_identity root); [reflexivity|].
      destruct (identity_read ns) as (steps & Es).
      destruct (C87_descendants dd ns root [] identity_path steps (H f c dd ns root Ef El)) as [_ E]; [|exact Es|].
      - exists (lit "."), (lit "identity/special/sil:identity"). reflexivity.
      - rewrite E. reflexivity. }
    destruct IH as [I1 I2]. split; [exact I1|]. intro A. apply I2. intros p Hp. apply A. now right.
  Qed.
End Proof.

(** * The hypotheses are met: a document that has the element in the place the script means, is not
    from CLDR and has no names, of a language with names *)
Definition ex_andoc : lnode :=
  M_Drafts.load blank (fun s => s) toy_hash ex_kbkeys (lit "unconfirmed") true
    (Node (lit "ldml") [] None
       [Node (lit "identity") [] None
          [Node (lit "special") [] None [Node (lit "{urn:sil}identity") [(lit "source", lit "sil")] None []]];
        Node (lit "characters") [] None []]).
Definition ex_antags (s : pystr) : option tagset :=
  if streq s (lit "aa-Latn") then Some (TagSet (Some (lit "Afar")) None (Some (lit "Qafar"))) else None.
Definition ex_autonames (files : list (pystr * ex_file)) :=
  autonames blank toy_hash ex_kbkeys true None None ex_file (fun d => Ok d) (fun d => d) (fun x => x) ex_antags (fun _ => Ok []).
Example C87_met :
  named ex_andoc /\ tag_of (lit "sldr/a/aa_Latn.xml") = lit "aa-Latn" /\
  (exists p e, find blank toy_hash ex_kbkeys (lit "unconfirmed") true None None ex_kbns ex_andoc [] (lit "./identity/special/sil:identity") = Ok (ex_andoc, Some p) /\
     at_place ex_andoc p = Some e /\ lget e (lit "source") = Some (lit "sil")) /\
  let files := [(lit "sldr/a/aa_Latn.xml", (lit "unconfirmed", ex_kbns, ex_andoc))] in
  (forall p c dd ns root, dget streq files p = Some c -> Ok c = Ok (dd, ns, root) -> named root) /\
  ex_autonames files [lit "sldr/a/aa_Latn.xml"] files = (files, None) /\
  exists root p x, fill blank toy_hash ex_kbkeys true None None (fun _ => Ok []) (lit "unconfirmed") ex_kbns ex_andoc (lit "aa-Latn")
      (TagSet (Some (lit "Afar")) None (Some (lit "Qafar"))) = Ok root /\
    find blank toy_hash ex_kbkeys (lit "unconfirmed") true None None ex_kbns root [] (language_path (lit "aa-Latn")) = Ok (root, Some p) /\
    at_place root p = Some x /\ ltext x = Some (lit "Qafar").
Proof.
  assert (named ex_andoc) as Nm.
  { intros q x Hq E. pose proof (everyb_spec (fun x => negb (streq (ltag x) [])) 10 ex_andoc ltac:(vm_compute; reflexivity) q x Hq) as V.
    cbv beta in V. rewrite E in V. discriminate. }
  split; [exact Nm|]. split; [vm_compute; reflexivity|]. split.
  { eexists _, _. split; [vm_compute; reflexivity|]. split; vm_compute; reflexivity. }
  cbv zeta. split.
  { intros p c dd ns root H E. cbn [dget] in H. destruct (streq _ _) in H; [|discriminate]. injection H as <-. injection E as _ _ <-. exact Nm. }
  split; [vm_compute; reflexivity|].
  eexists _, _, _. split; [vm_compute; reflexivity|]. split; [vm_compute; reflexivity|]. split; vm_compute; reflexivity.
Qed.
