(** C95: merging documents with ldmlmerge. *)
From Coq Require Import String.
From Verif Require Import Py PyFacts M_Files M_MergeScript.
Local Open Scope list_scope.

(** * Specification *)
(** the same command with another choice of an option *)
Definition with_nogeneration (b : bool) (a : margs) : margs :=
  MA (a_this a) (a_base a) (a_other a) (a_output a) (a_winner a) (a_dirs a) (a_git a) (a_default a) (a_copycomments a) b (a_verbose a).
(** a command on files: no git, no directories, not verbose, an output *)
Definition plain_cmd (a : margs) (out : pystr) : Prop :=
  a_git a = false /\ a_dirs a = None /\ a_verbose a = false /\ a_output a = Some out /\ out <> [].
(** a file that has something in it *)
Definition has_text (files : fs) (f text : pystr) : Prop := dget streq files f = Some text /\ text <> [].

Section Proof.
  Variable D : Type.
  Variable lower : pystr -> pystr.
  Variable empty : option pystr -> D.
  Variable read : option pystr -> pystr -> res D.
  Variable flatten : D -> list pystr -> pystr -> res D.
  Variable unflatten : D -> option (list pystr) -> pystr -> res D.
  Variable revid_of : D -> option pystr.
  Variable git_show : pystr -> res pystr.
  Variable merge : D -> option D -> D -> pystr -> option pystr -> res (D * bool).
  Variable has_generation has_identity : D -> bool.
  Variable normalise : bool -> D -> res D.
  Variable drop_ids : D -> D.
  Variable text_of : D -> pystr * option exn.
  Notation ldmlmerge := (ldmlmerge D lower empty read flatten unflatten revid_of git_show merge has_generation has_identity normalise drop_ids text_of).
  Notation prepare := (prepare D lower empty read flatten unflatten revid_of git_show merge has_generation has_identity normalise drop_ids).
  Definition files_of (r : fs * pystr * option exn) : fs := fst (fst r).
  Definition error_of (r : fs * pystr * option exn) : option exn := snd r.

  (** ** C95: only the output can change, and a run that does not end in an error writes the merged
      document as a whole *)
  Theorem C95_only_output : forall a files f, a_output a <> Some f -> dget streq (files_of (ldmlmerge a files)) f = dget streq files f.
  Proof.
    intros a files f H. unfold M_MergeScript.ldmlmerge. destruct (prepare a files) as [d|e]; [|reflexivity].
    destruct (a_output a) as [[|c o]|] eqn:O; try reflexivity. unfold files_of. cbn [fst]. apply (dget_dset_other _ streq_spec). congruence.
  Qed.
  Theorem C95_no_error : forall a files, error_of (ldmlmerge a files) = None ->
    exists out n s, a_output a = Some out /\ text_of n = (s, None) /\ dget streq (files_of (ldmlmerge a files)) out = Some s.
  Proof.
    intros a files. unfold M_MergeScript.ldmlmerge. destruct (prepare a files) as [d|e]; [|discriminate].
    destruct (a_output a) as [[|c o]|]; try discriminate. unfold error_of, files_of. cbn [fst snd].
    destruct (normalise true d) as [n|e]; [|discriminate]. destruct (text_of n) as [s r] eqn:T. cbn [fst snd]. intros ->.
    exists (c :: o), n, s. repeat split; [exact T|]. apply (dget_dset_same _ streq_spec).
  Qed.
  Lemma load_text w files f text : has_text files f text -> LdmlMerge D empty read w files f = read w text.
  Proof. intros [H N]. unfold LdmlMerge. rewrite H. now destruct text. Qed.
  Theorem C95_merged : forall a out files t b o tt bt ot this base other m n n2 s changed,
    plain_cmd a out -> a_this a = t -> a_base a = b -> a_other a = Some o -> o <> [] ->
    has_text files t tt -> has_text files b bt -> has_text files o ot ->
    read (a_winner a) tt = Ok this -> read None bt = Ok base -> read None ot = Ok other ->
    merge this (Some other) base (a_default a) (a_copycomments a) = Ok (m, changed) -> has_identity m = true ->
    normalise false m = Ok n -> normalise true n = Ok n2 -> text_of n2 = (s, None) ->
    error_of (ldmlmerge a files) = None /\ dget streq (files_of (ldmlmerge a files)) out = Some s.
  Proof.
    intros a out files t b o tt bt ot this base other m n n2 s changed (G & Di & V & O & No) Ht Hb Ho Noo T1 T2 T3 R1 R2 R3 M I N1 N2 X.
    assert (prepare a files = Ok n) as P.
    { unfold M_MergeScript.prepare, file_docs, verbose, generation. rewrite Ht, Hb, Ho, G, Di, V.
      rewrite (load_text _ _ _ _ T1), R1. cbn [bind]. rewrite (load_text _ _ _ _ T2), R2. cbn [bind].
      destruct o as [|c o]; [congruence|]. rewrite (load_text _ _ _ _ T3), R3. cbn [bind fst snd]. rewrite M. cbn [bind fst snd].
      rewrite I. destruct (changed && negb (a_nogeneration a))%bool; [destruct (has_generation m)|]; cbn [bind]; now rewrite N1. }
    unfold M_MergeScript.ldmlmerge. rewrite P, N2, O, X. destruct out as [|c out]; [congruence|]. split; [reflexivity|].
    unfold files_of. cbn [fst]. apply (dget_dset_same _ streq_spec).
  Qed.
  (** ** The date of generation is never brought up to date: leaving it out makes no difference, except
      that a changed document without an identity is an error *)
  Theorem C95_generation_refuted : forall a files,
    let stamped := ldmlmerge (with_nogeneration false a) files in
    let plain := ldmlmerge (with_nogeneration true a) files in
    (stamped = plain \/ (files_of stamped = files /\ error_of stamped = Some AttributeError)) /\
    ((forall this other base d c m changed, merge this other base d c = Ok (m, changed) -> has_identity m = true) -> stamped = plain).
  Proof.
    intros a files stamped plain.
    assert (prepare (with_nogeneration false a) files = prepare (with_nogeneration true a) files \/
            (prepare (with_nogeneration false a) files = Raise AttributeError /\
             ~ (forall this other base d c m changed, merge this other base d c = Ok (m, changed) -> has_identity m = true))) as P.
    { unfold M_MergeScript.prepare, with_nogeneration. cbn [a_this a_base a_other a_output a_winner a_dirs a_git a_default a_copycomments a_nogeneration a_verbose].
      destruct (LdmlMerge D empty read (a_winner a) files (a_this a)) as [this|e]; [|now left]. cbn [bind].
      match goal with |- context [bind ?x _] => destruct x as [this'|e]; [|now left] end. cbn [bind].
      unfold git_docs, file_docs, verbose. cbn [a_this a_base a_other a_output a_winner a_dirs a_git a_default a_copycomments a_nogeneration a_verbose].
      match goal with |- context [bind ?x _] => destruct x as [[base other]|e]; [|now left] end. cbn [bind fst snd].
      match goal with |- context [bind ?x _] => destruct x as [u|e]; [|now left] end. cbn [bind].
      destruct base as [base|]; [|now left]. destruct (merge this' other base (a_default a) (a_copycomments a)) as [[m ch]|e] eqn:M; [|now left].
      cbn [bind fst snd]. unfold generation. cbn [a_nogeneration negb]. rewrite andb_false_r, andb_true_r. destruct ch; [|now left].
      destruct (has_generation m); [now left|]. destruct (has_identity m) eqn:I; [now left|]. right. split; [reflexivity|].
      intros H. rewrite (H _ _ _ _ _ _ _ M) in I. discriminate. }
    assert (prepare (with_nogeneration false a) files = prepare (with_nogeneration true a) files -> stamped = plain) as Q.
    { intros H. unfold stamped, plain, M_MergeScript.ldmlmerge. now rewrite H. }
    split.
    - destruct P as [P|[P _]]; [left; auto|right]. unfold stamped, M_MergeScript.ldmlmerge. rewrite P. now split.
    - intros H. destruct P as [P|[_ P]]; [auto|contradiction].
  Qed.
  (** ** --git never works, in whatever repository, and changes nothing *)
  Theorem C95_git_refuted : forall a files, a_git a = true -> files_of (ldmlmerge a files) = files /\ error_of (ldmlmerge a files) <> None.
  Proof.
    intros a files G. unfold M_MergeScript.ldmlmerge.
    assert (exists e, prepare a files = Raise e) as (e & ->); [|now split].
    unfold M_MergeScript.prepare. rewrite G.
    destruct (LdmlMerge D empty read (a_winner a) files (a_this a)) as [this|e]; [|now exists e]. cbn [bind].
    match goal with |- context [bind ?x _] => destruct x as [this'|e]; [|now exists e] end. cbn [bind]. unfold git_docs.
    destruct (revid_of this') as [revid|].
    - destruct (find_ldml lower files (a_base a) (a_dirs a)) as [[f|]|e]; cbn [bind]; [|now exists TypeError|now exists e].
      destruct (git_show (revid ++ lit ":" ++ f)) as [t|e]; [now exists TypeError|now exists e].
    - unfold verbose. cbn [bind fst snd]. destruct (a_verbose a); now exists NameError.
  Qed.
  (** ** Without an output file nothing is ever shown *)
  Theorem C95_screen_refuted : forall a files, (a_output a = None \/ a_output a = Some []) ->
    exists e, ldmlmerge a files = (files, [], Some e).
  Proof.
    intros a files O. unfold M_MergeScript.ldmlmerge. destruct (prepare a files) as [d|e]; [|now exists e].
    destruct O as [-> | ->]; eexists; reflexivity.
  Qed.
  (** ** --verbose does not work with two files *)
  Theorem C95_verbose_refuted : forall a files, a_git a = false -> a_verbose a = true -> (a_other a = None \/ a_other a = Some []) ->
    files_of (ldmlmerge a files) = files /\ error_of (ldmlmerge a files) <> None.
  Proof.
    intros a files G V O. unfold M_MergeScript.ldmlmerge.
    assert (exists e, prepare a files = Raise e) as (e & ->); [|now split].
    unfold M_MergeScript.prepare, file_docs, verbose. rewrite G, V.
    destruct (LdmlMerge D empty read (a_winner a) files (a_this a)) as [this|e]; [|now exists e]. cbn [bind].
    match goal with |- context [bind ?x _] => destruct x as [this'|e]; [|now exists e] end. cbn [bind].
    destruct (LdmlMerge D empty read None files (a_base a)) as [base|e]; [|now exists e].
    destruct O as [->| ->]; now exists AttributeError.
  Qed.
  (** ** A mistyped name is not noticed: the merge goes on with an empty document, and the output is
      written *)
  Theorem C95_missing_refuted : forall a out files b o bt ot base other m n n2 s changed,
    plain_cmd a out -> dget streq files (a_this a) = None -> a_base a = b -> a_other a = Some o -> o <> [] ->
    has_text files b bt -> has_text files o ot -> read None bt = Ok base -> read None ot = Ok other ->
    merge (empty (a_winner a)) (Some other) base (a_default a) (a_copycomments a) = Ok (m, changed) -> (changed = true -> has_identity m = true) ->
    normalise false m = Ok n -> normalise true n = Ok n2 -> text_of n2 = (s, None) ->
    error_of (ldmlmerge a files) = None /\ dget streq (files_of (ldmlmerge a files)) out = Some s.
  Proof.
    intros a out files b o bt ot base other m n n2 s changed (G & Di & V & O & No) T1 Hb Ho Noo T2 T3 R2 R3 M I N1 N2 X.
    assert (prepare a files = Ok n) as P.
    { unfold M_MergeScript.prepare, file_docs, verbose, generation. rewrite Hb, Ho, G, Di, V. unfold LdmlMerge at 1. rewrite T1. cbn [bind].
      rewrite (load_text _ _ _ _ T2), R2. cbn [bind].
      destruct o as [|c o]; [congruence|]. rewrite (load_text _ _ _ _ T3), R3. cbn [bind fst snd]. rewrite M. cbn [bind fst snd].
      destruct changed; cbn [andb]; [rewrite (I eq_refl)|]; [destruct (negb (a_nogeneration a)); [destruct (has_generation m)|]|]; cbn [bind]; now rewrite N1. }
    unfold M_MergeScript.ldmlmerge. rewrite P, N2, O, X. destruct out as [|c out]; [congruence|]. split; [reflexivity|].
    unfold files_of. cbn [fst]. apply (dget_dset_same _ streq_spec).
  Qed.
End Proof.

(** * The hypotheses are met: a document is its text; merging takes the other one *)
Definition ex_merge (this : pystr) (o : option pystr) (b d : pystr) (c : option pystr) : res (pystr * bool) :=
  match o with Some o => if streq this b then Ok (o, true) else Ok (this, false) | None => Ok (this, false) end.
Definition ex_run := ldmlmerge pystr (fun c => c) (fun _ => []) (fun _ t => Ok t) (fun d _ _ => Ok d) (fun d _ _ => Ok d)
  (fun _ => Some (lit "r1")) (fun _ => Ok (lit "old")) ex_merge (fun _ => false) (fun d => match d with [] => false | _ => true end)
  (fun _ d => Ok d) (fun d => d) (fun d => (d, None)).
Definition ex_files : fs := [(lit "t", lit "A"); (lit "b", lit "A"); (lit "o", lit "B"); (lit "out", lit "old"); (lit "d/b", lit "A")].
Definition ex_args (this : pystr) (git : bool) (dirs : option (list pystr)) : margs :=
  MA this (lit "b") (Some (lit "o")) (Some (lit "out")) None dirs git (lit "proposed") None false false.
Example C95_met :
  plain_cmd (ex_args (lit "t") false None) (lit "out") /\ has_text ex_files (lit "t") (lit "A") /\
  ex_run (ex_args (lit "t") false None) ex_files = (dset streq ex_files (lit "out") (lit "B"), [], None) /\
  ex_run (ex_args (lit "x") false None) ex_files = (dset streq ex_files (lit "out") [], [], None) /\
  ex_run (ex_args (lit "t") true (Some [lit "d"])) ex_files = (ex_files, [], Some TypeError).
Proof. repeat split; try discriminate; vm_compute; reflexivity. Qed.
