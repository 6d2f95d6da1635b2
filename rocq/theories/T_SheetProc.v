(** C66: what a spreadsheet and an LDML document have to do with each other. *)
From Coq Require Import String.
From Verif Require Import Py PyFacts M_Sheet T_Sheet M_SheetProc.
Local Open Scope list_scope.
Local Open Scope nat_scope.

(** * Specification *)
Definition job_row (j : job) : list pystr :=
  match j with JItem row _ _ | J1 row _ _ | J2 row _ _ _ _ | J2r row _ _ _ _ | J2x row _ => row end.
(** the content of a cell: [None] if there is no cell or it is blank *)
Definition has (row : list pystr) (k : nat) (v : pystr) : Prop := nth_error row k = Some v /\ v <> [].
(** cell [k] of the row (its first column not counted) holds the text of the element at the path *)
Inductive spot : job -> nat -> pystr -> Prop :=
| SpotItem row path : spot (JItem row path None) 2 path
| Spot1 row p1 p2 : spot (J1 row p1 p2) 2 (p1 ++ cell0 row ++ p2)
| Spot2 row p1 p2 p3 hs k h : nth_error hs k = Some h -> spot (J2 row p1 p2 p3 hs) (k + 2) (p1 ++ h ++ p2 ++ cell0 row ++ p3)
| Spot2r row p1 p2 p3 hs k h : nth_error hs k = Some h -> spot (J2r row p1 p2 p3 hs) (k + 2) (p1 ++ cell0 row ++ p2 ++ h ++ p3)
| Spot2x row ps k a b item : has row 1 item -> nth_error ps k = Some (a, b) -> spot (J2x row ps) (k + 2) (a ++ item ++ b).

(** * Proof *)
Lemma filled_spec row k v : filled row k = Some v <-> has row k v.
Proof.
  unfold filled, has. destruct (nth_error row k) as [[|c s]|]; split.
  - discriminate. - intros [E N]. injection E as <-. contradiction.
  - intro H. injection H as <-. split; [reflexivity|discriminate]. - intros [E _]. congruence.
  - discriminate. - intros [E _]. discriminate.
Qed.
Lemma in_number {A} (l : list A) : forall k0 k x, In (k, x) (number k0 l) <-> exists n, k = n + k0 /\ nth_error l n = Some x.
Proof.
  induction l as [|y l IH]; intros k0 k x; cbn [number In].
  - split; [intros []|]. intros ([|n] & _ & E); discriminate.
  - rewrite IH. split.
    + intros [E|(n & -> & E)]; [injection E as <- <-; exists 0; auto|]. exists (S n). split; [lia|exact E].
    + intros ([|n] & -> & E); [left; cbn in E; injection E as <-; reflexivity|right]. exists n. split; [lia|exact E].
Qed.
Lemma in_text_write row k path w : In w (text_write row k path) <-> exists v, w = WText path v /\ has row k v.
Proof.
  unfold text_write. destruct (filled row k) as [v|] eqn:E.
  - apply filled_spec in E. cbn [In]. split; [intros [<-|[]]; eauto|]. intros (v' & -> & H). left. f_equal.
    destruct E as [E _], H as [H _]. congruence.
  - split; [intros []|]. intros (v & _ & H). apply filled_spec in H. congruence.
Qed.

(** A text is written for every cell that is not blank, and for no other. *)
Theorem C66_texts : forall j p v, In (WText p v) (ldml_writes j) <-> exists k, spot j k p /\ has (job_row j) k v.
Proof.
  intros j p v. destruct j as [row path [a|]|row p1 p2|row p1 p2 p3 hs|row p1 p2 p3 hs|row ps]; cbn [ldml_writes job_row].
  - split; [destruct (filled row 2); [intros [E|[]]; discriminate E|intros []]|]. intros (k & S & _). inversion S.
  - rewrite in_text_write. split.
    + intros (v' & E & H). injection E as -> ->. exists 2. split; [constructor|exact H].
    + intros (k & S & H). inversion S; subst. eauto.
  - rewrite in_text_write. split.
    + intros (v' & E & H). injection E as -> ->. exists 2. split; [constructor|exact H].
    + intros (k & S & H). inversion S; subst. eauto.
  - rewrite in_flat_map. split.
    + intros ([k h] & Hk & Hw). apply in_number in Hk as (n & -> & Hn). apply in_text_write in Hw as (v' & E & H).
      injection E as -> ->. exists (n + 2). split; [now constructor|exact H].
    + intros (k & S & H). inversion S as [| |? ? ? ? ? n h Hn| |]; subst. exists (n + 2, h).
      split; [apply in_number; eauto|]. apply in_text_write. eauto.
  - rewrite in_flat_map. split.
    + intros ([k h] & Hk & Hw). apply in_number in Hk as (n & -> & Hn). apply in_text_write in Hw as (v' & E & H).
      injection E as -> ->. exists (n + 2). split; [now constructor|exact H].
    + intros (k & S & H). inversion S as [| | |? ? ? ? ? n h Hn|]; subst. exists (n + 2, h).
      split; [apply in_number; eauto|]. apply in_text_write. eauto.
  - destruct (nth_error row 1) as [[|c s]|] eqn:E1.
    + split; [intros []|]. intros (k & S & _). inversion S as [| | | |? ? ? ? ? ? [Hi Ni]]; subst. congruence.
    + rewrite in_flat_map. split.
      * intros ([k [a b]] & Hk & Hw). apply in_number in Hk as (n & -> & Hn). apply in_text_write in Hw as (v' & E & H).
        injection E as -> ->. exists (n + 2). split; [|exact H]. apply (Spot2x row ps n a b (c :: s)); [|exact Hn]. split; [exact E1|discriminate].
      * intros (k & S & H). inversion S as [| | | |? ? n a b item [Hi Ni] Hn]; subst.
        assert (item = c :: s) as -> by congruence. exists (n + 2, (a, b)).
        split; [apply in_number; eauto|]. apply in_text_write. eauto.
    + split; [intros []|]. intros (k & S & _). inversion S as [| | | |? ? ? ? ? ? [Hi Ni]]; subst. congruence.
Qed.

(** An attribute is written if its cell is not blank: the value is put into the path. *)
Theorem C66_attribute : forall row path a w, In w (ldml_writes (JItem row path (Some a))) <->
  exists v, has row 2 v /\ w = WPath (removelast path ++ lit "='" ++ v ++ lit "']").
Proof.
  intros row path a w. cbn [ldml_writes]. destruct (filled row 2) as [v|] eqn:E.
  - apply filled_spec in E. cbn [In]. split; [intros [<-|[]]; eauto|]. intros (v' & H & ->). left.
    destruct E as [E _], H as [H _]. congruence.
  - split; [intros []|]. intros (v & H & _). apply filled_spec in H. congruence.
Qed.

Section Back.
  Variable find : pystr -> option found.
  Lemma in_put_value col v w : In w (put_value col v) <-> w = (col, v) /\ v <> Some [].
  Proof.
    unfold put_value. destruct v as [[|c s]|]; cbn [In].
    - split; [tauto|]. intros [_ H]. congruence.
    - split; [intros [<-|[]]; split; [reflexivity|discriminate]|]. intros [-> _]. now left.
    - split; [intros [<-|[]]; split; [reflexivity|discriminate]|]. intros [-> _]. now left.
  Qed.
  Lemma in_put_text col path w : In w (put_text find col path) <-> exists e, find path = Some e /\ w = (col, f_text e) /\ f_text e <> Some [].
  Proof.
    unfold put_text. destruct (find path) as [e|].
    - rewrite in_put_value. split; [intros [H1 H2]; eauto|]. intros (e' & E & H). injection E as <-. exact H.
    - split; [intros []|]. intros (e & E & _). discriminate.
  Qed.
End Back.
(** The text of an element that is found goes into the cell of its path. *)
Theorem C66_cells : forall find j col t, (forall row path a, j <> JItem row path (Some a)) ->
  In (col, t) (ods_writes find j) <->
  exists k p e, spot j k p /\ col = k + 2 /\ find p = Some e /\ f_text e = t /\ t <> Some [].
Proof.
  intros find j col t NA. destruct j as [row path [a|]|row p1 p2|row p1 p2 p3 hs|row p1 p2 p3 hs|row ps]; cbn [ods_writes].
  - exfalso. apply (NA row path a). reflexivity.
  - rewrite in_put_text. split.
    + intros (e & F & E & N). injection E as -> ->. exists 2, path, e. repeat split; auto. constructor.
    + intros (k & p & e & S & -> & F & <- & N). inversion S; subst. exists e. auto.
  - rewrite in_put_text. split.
    + intros (e & F & E & N). injection E as -> ->. exists 2, (p1 ++ cell0 row ++ p2), e. repeat split; auto. constructor.
    + intros (k & p & e & S & -> & F & <- & N). inversion S; subst. exists e. auto.
  - rewrite in_flat_map. split.
    + intros ([k h] & Hk & Hw). apply in_number in Hk as (n & -> & Hn). apply in_put_text in Hw as (e & F & E & N).
      injection E as -> ->. exists (n + 2), (p1 ++ h ++ p2 ++ cell0 row ++ p3), e. repeat split; auto; [now constructor|lia].
    + intros (k & p & e & S & -> & F & <- & N). inversion S as [| |? ? ? ? ? n h Hn| |]; subst. exists (n + 4, h).
      split; [apply in_number; eauto|]. apply in_put_text. exists e. repeat split; auto. f_equal. lia.
  - rewrite in_flat_map. split.
    + intros ([k h] & Hk & Hw). apply in_number in Hk as (n & -> & Hn). apply in_put_text in Hw as (e & F & E & N).
      injection E as -> ->. exists (n + 2), (p1 ++ cell0 row ++ p2 ++ h ++ p3), e. repeat split; auto; [now constructor|lia].
    + intros (k & p & e & S & -> & F & <- & N). inversion S as [| | |? ? ? ? ? n h Hn|]; subst. exists (n + 4, h).
      split; [apply in_number; eauto|]. apply in_put_text. exists e. repeat split; auto. f_equal. lia.
  - destruct (nth_error row 1) as [[|c s]|] eqn:E1.
    + split; [intros []|]. intros (k & p & e & S & _). inversion S as [| | | |? ? ? ? ? ? [Hi Ni]]; subst. congruence.
    + rewrite in_flat_map. split.
      * intros ([k [a b]] & Hk & Hw). apply in_number in Hk as (n & -> & Hn). apply in_put_text in Hw as (e & F & E & N).
        injection E as -> ->. exists (n + 2), (a ++ (c :: s) ++ b), e. repeat split; auto; [|lia].
        apply (Spot2x row ps n a b (c :: s)); [|exact Hn]. split; [exact E1|discriminate].
      * intros (k & p & e & S & -> & F & <- & N). inversion S as [| | | |? ? n a b item [Hi Ni] Hn]; subst.
        assert (item = c :: s) as -> by congruence. exists (n + 4, (a, b)).
        split; [apply in_number; eauto|]. apply in_put_text. exists e. repeat split; auto. f_equal. lia.
    + split; [intros []|]. intros (k & p & e & S & _). inversion S as [| | | |? ? ? ? ? ? [Hi Ni]]; subst. congruence.
Qed.

(** ** Which rows ask for what *)
Lemma step_jobs m row m' js j : step_row m row = Ok (m', js) -> In j js -> job_row j = row.
Proof.
  assert (forall m' js, top_row row = Ok (m', js) -> In j js -> job_row j = row) as T.
  { clear. intros m' js. unfold top_row. destruct (cell0 row) as [|c s]; [intros E H; injection E as <- <-; destruct H|].
    repeat (destruct (streq (firstn _ (c :: s)) _); [intros E H; try (injection E as <- <-; destruct H)|]).
    - destruct (t1_all _); cbn [bind] in E; [injection E as <- <-; destruct H|discriminate].
    - destruct (e_match _); [|discriminate]. destruct (nth_error row 2); [|discriminate].
      intros E H. injection E as <- <-. destruct H as [<-|[]]. reflexivity. }
  intros E H. destruct m as [|x|x hs|x hs|ps]; cbn [step_row] in E.
  - eauto.
  - destruct (in_table row); [|eauto]. destruct x as [[a b]|]; [|discriminate]. injection E as <- <-. destruct H as [<-|[]]. reflexivity.
  - destruct (in_table row); [|eauto]. destruct x as [[[a b] c]|]; [|discriminate]. injection E as <- <-. destruct H as [<-|[]]. reflexivity.
  - destruct (in_table row); [|eauto]. destruct x as [[[a b] c]|]; [|discriminate]. injection E as <- <-. destruct H as [<-|[]]. reflexivity.
  - destruct (in_table2dx row); [|eauto]. injection E as <- <-. destruct H as [<-|[]]. reflexivity.
Qed.
Theorem C66_rows : forall rows m i0 i j, In (i, j) (fst (process i0 m rows)) ->
  i0 <= i /\ nth_error rows (i - i0) = Some (job_row j).
Proof.
  induction rows as [|row rows IH]; intros m i0 i j; cbn [process]; [intros []|].
  destruct (step_row m row) as [[m' js]|e] eqn:E; [|intros []].
  destruct (process (S i0) m' rows) as [r e] eqn:P. cbn [fst]. rewrite in_app_iff, in_map_iff.
  intros [(j' & E' & Hj)|H].
  - injection E' as <- <-. split; [lia|]. rewrite Nat.sub_diag. cbn [nth_error]. f_equal. symmetry. eapply step_jobs; eassumption.
  - specialize (IH m' (S i0) i j). rewrite P in IH. destruct (IH H) as [L N]. split; [lia|].
    replace (i - i0) with (S (i - S i0)) by lia. exact N.
Qed.

(** A table reaches from the row after its head to the next row without a first cell. *)
Definition no_dollar (s : pystr) : Prop := s <> [] /\ ~ In 36%N s.
Definition one_line (s : pystr) : Prop := ~ In 10%N s.
Definition keyed (row : list pystr) : Prop := exists v, has row 0 v.
Definition blank_first (rows : list (list pystr)) : Prop :=
  match rows with [] => True | row :: _ => ~ keyed row end.
Lemma span_app x a b : ~ In x a -> span_not x (a ++ x :: b) = (a, x :: b).
Proof.
  induction a as [|c a IH]; intro N; cbn [span_not app]; [now rewrite N.eqb_refl|].
  destruct (N.eqb_spec c x) as [->|_]; [exfalso; apply N; now left|]. rewrite IH; [reflexivity|]. intro H. apply N. now right.
Qed.
Lemma to_end_id s : one_line s -> to_end s = Some s.
Proof.
  unfold one_line. induction s as [|c s IH]; intro N; cbn [to_end]; [reflexivity|].
  destruct (N.eqb_spec c newline) as [->|_]; [exfalso; apply N; now left|]. rewrite IH; [reflexivity|]. intro H. apply N. now right.
Qed.
Lemma strip_app p s : strip_prefix p (p ++ s) = Some s.
Proof. induction p as [|c p IH]; cbn; [reflexivity|]. now rewrite N.eqb_refl. Qed.
Lemma t1_ok a b : no_dollar a -> one_line b -> t1_match (a ++ lit "$row" ++ b) = Some (a, b).
Proof.
  intros [Na Da] Ob. unfold t1_match. change (lit "$row" ++ b) with (36%N :: lit "row" ++ b).
  unfold dollar. rewrite span_app by assumption. destruct a as [|c a]; [contradiction|].
  change (36%N :: lit "row" ++ b) with (lit "$row" ++ b). rewrite strip_app. now rewrite to_end_id.
Qed.
Lemma t2_ok x y a b c : no_dollar a -> no_dollar b -> one_line c ->
  t2_match (36%N :: x) (36%N :: y) (a ++ (36%N :: x) ++ b ++ (36%N :: y) ++ c) = Some (a, b, c).
Proof.
  intros [Na Da] [Nb Db] Oc. unfold t2_match, dollar. cbn [app]. rewrite span_app by assumption.
  destruct a as [|c1 a]; [contradiction|]. change (36%N :: x ++ b ++ 36%N :: y ++ c) with ((36%N :: x) ++ b ++ 36%N :: y ++ c).
  rewrite strip_app. rewrite span_app by assumption. destruct b as [|c2 b]; [contradiction|].
  change (36%N :: y ++ c) with ((36%N :: y) ++ c). rewrite strip_app. now rewrite to_end_id.
Qed.
Lemma in_table_spec row : in_table row = true <-> keyed row.
Proof.
  unfold keyed, has. destruct row as [|[|c s] row]; cbn.
  - split; [discriminate|]. intros (v & E & _). discriminate.
  - split; [discriminate|]. intros (v & E & N). congruence.
  - split; [|reflexivity]. intros _. exists (c :: s). split; [reflexivity|discriminate].
Qed.
Lemma process_end i m rows : (match m with M2x _ => match rows with row :: _ => in_table2dx row = false | [] => True end | _ => blank_first rows end) ->
  process i m rows = process i Top rows.
Proof.
  destruct rows as [|row rows]; [reflexivity|]. intro B. cbn [process].
  assert (step_row m row = step_row Top row) as ->; [|reflexivity]. cbn [step_row].
  destruct m as [|x|x hs|x hs|ps]; cbn [step_row]; try reflexivity; cbn [blank_first] in B.
  - destruct (in_table row) eqn:E; [apply in_table_spec in E; contradiction|reflexivity].
  - destruct (in_table row) eqn:E; [apply in_table_spec in E; contradiction|reflexivity].
  - destruct (in_table row) eqn:E; [apply in_table_spec in E; contradiction|reflexivity].
  - now rewrite B.
Qed.
Definition numbered {A} (i : nat) (l : list A) : list (nat * A) := combine (seq i (length l)) l.
Lemma process_body m (f : list pystr -> job) (Q : list pystr -> Prop) :
  (forall row, Q row -> step_row m row = Ok (m, [f row])) ->
  forall body i rest, Forall Q body ->
  process i m (body ++ rest) =
    (numbered i (map f body) ++ fst (process (i + length body) m rest), snd (process (i + length body) m rest)).
Proof.
  intro S. induction body as [|row body IH]; intros i rest F; cbn [app process length map].
  - rewrite Nat.add_0_r. destruct (process i m rest); reflexivity.
  - inversion F as [|? ? HQ F']; subst. rewrite (S row HQ), IH by assumption. rewrite Nat.add_succ_comm.
    unfold numbered. cbn [map length seq combine app]. reflexivity.
Qed.

Lemma removelast_snoc {A} (l : list A) x : removelast (l ++ [x]) = l.
Proof. apply removelast_last. Qed.
Definition head1 (a b : pystr) : pystr := lit "table1d(" ++ a ++ lit "$row" ++ b ++ lit ")".
Definition head2 (a b c : pystr) : pystr := lit "table2d(" ++ a ++ lit "$col" ++ b ++ lit "$row" ++ c ++ lit ")".
Definition head2r (a b c : pystr) : pystr := lit "table2dr(" ++ a ++ lit "$row" ++ b ++ lit "$col" ++ c ++ lit ")".
Definition head2x (ps : list (pystr * pystr)) : pystr :=
  lit "table2dx(" ++ join (lit ",") (map (fun p => fst p ++ lit "$row" ++ snd p) ps) ++ lit ")".
(** the headings: up to the first blank one *)
Definition headings (cells hs : list pystr) : Prop :=
  exists more, cells = hs ++ more /\ Forall (fun h => h <> []) hs /\ (more = [] \/ hd [] more = []).

Lemma heads_ok t1 t2 cells hs : headings cells hs -> heads (t1 :: t2 :: cells) = hs.
Proof.
  intros (more & -> & F & M). unfold heads. cbn [skipn]. induction F as [|h hs N F IH]; cbn [app heads_of].
  - destruct M as [->|M]; [reflexivity|]. destruct more as [|[|c m] more]; [reflexivity|reflexivity|discriminate].
  - destruct h as [|c h]; [contradiction|]. now rewrite IH.
Qed.

Theorem C66_table1d : forall i a b cells body rest, no_dollar a -> one_line b ->
  Forall keyed body -> blank_first rest ->
  process i Top ((head1 a b :: cells) :: body ++ rest) =
    (numbered (S i) (map (fun row => J1 row a b) body) ++ fst (process (S i + length body) Top rest),
     snd (process (S i + length body) Top rest)).
Proof.
  intros i a b cells body rest Ha Hb F B. cbn [process step_row].
  assert (top_row (head1 a b :: cells) = Ok (M1 (Some (a, b)), [])) as ->.
  { unfold top_row. cbn [cell0]. unfold head1 at 1. change (lit "table1d(" ++ ?x) with (116%N :: lit "able1d(" ++ x).
    cbn iota. change (116%N :: lit "able1d(" ++ ?x) with (lit "table1d(" ++ x).
    assert (firstn 8 (head1 a b) = lit "table1d(") as E by reflexivity. fold (head1 a b). rewrite E.
    change (streq (lit "table1d(") (lit "table1d(")) with true. cbn iota. do 3 f_equal.
    unfold inner, head1. change (lit ")") with [41%N]. rewrite !app_assoc, removelast_snoc, <- !app_assoc.
    change (skipn 8 (lit "table1d(" ++ ?x)) with x. now apply t1_ok. }
  rewrite (process_body (M1 (Some (a, b))) (fun row => J1 row a b) keyed).
  - rewrite process_end by exact B. reflexivity.
  - intros row K. cbn [step_row]. apply in_table_spec in K. now rewrite K.
  - exact F.
Qed.
Lemma top_table2d a b c cells : top_row (head2 a b c :: cells) =
  Ok (M2 (t2_match (lit "$col") (lit "$row") (a ++ lit "$col" ++ b ++ lit "$row" ++ c)) (heads (head2 a b c :: cells)), []).
Proof.
  unfold top_row. cbn [cell0].
  assert (exists r, head2 a b c = 116%N :: r) as (r & E) by (eexists; reflexivity).
  assert (firstn 8 (head2 a b c) = lit "table2d(") as E8 by reflexivity.
  assert (inner 8 (head2 a b c) = a ++ lit "$col" ++ b ++ lit "$row" ++ c) as Ei.
  { unfold inner, head2. change (lit ")") with [41%N]. rewrite !app_assoc, removelast_snoc, <- !app_assoc. reflexivity. }
  rewrite E8, Ei. change (streq (lit "table2d(") (lit "table1d(")) with false.
  change (streq (lit "table2d(") (lit "table2d(")) with true. rewrite E. reflexivity.
Qed.
Lemma top_table2dr a b c cells : top_row (head2r a b c :: cells) =
  Ok (M2r (t2_match (lit "$row") (lit "$col") (a ++ lit "$row" ++ b ++ lit "$col" ++ c)) (heads (head2r a b c :: cells)), []).
Proof.
  unfold top_row. cbn [cell0].
  assert (exists r, head2r a b c = 116%N :: r) as (r & E) by (eexists; reflexivity).
  assert (firstn 8 (head2r a b c) = lit "table2dr") as E8 by reflexivity.
  assert (firstn 9 (head2r a b c) = lit "table2dr(") as E9 by reflexivity.
  assert (inner 9 (head2r a b c) = a ++ lit "$row" ++ b ++ lit "$col" ++ c) as Ei.
  { unfold inner, head2r. change (lit ")") with [41%N]. rewrite !app_assoc, removelast_snoc, <- !app_assoc. reflexivity. }
  rewrite E8, E9, Ei. change (streq (lit "table2dr") (lit "table1d(")) with false.
  change (streq (lit "table2dr") (lit "table2d(")) with false.
  change (streq (lit "table2dr(") (lit "table2dr(")) with true. rewrite E. reflexivity.
Qed.

Theorem C66_table2d : forall i a b c t2 cells hs body rest, no_dollar a -> no_dollar b -> one_line c -> headings cells hs ->
  Forall keyed body -> blank_first rest ->
  process i Top ((head2 a b c :: t2 :: cells) :: body ++ rest) =
    (numbered (S i) (map (fun row => J2 row a b c hs) body) ++ fst (process (S i + length body) Top rest),
     snd (process (S i + length body) Top rest)).
Proof.
  intros i a b c t2 cells hs body rest Ha Hb Hc Hh F B. cbn [process step_row].
  rewrite top_table2d, (heads_ok _ _ _ _ Hh).
  change (lit "$col") with (36%N :: lit "col"). change (lit "$row") with (36%N :: lit "row").
  rewrite (t2_ok (lit "col") (lit "row") a b c Ha Hb Hc). cbn [map app].
  rewrite (process_body (M2 (Some (a, b, c)) hs) (fun row => J2 row a b c hs) keyed).
  - rewrite process_end by exact B. reflexivity.
  - intros row K. cbn [step_row]. apply in_table_spec in K. now rewrite K.
  - exact F.
Qed.
Theorem C66_table2dr : forall i a b c t2 cells hs body rest, no_dollar a -> no_dollar b -> one_line c -> headings cells hs ->
  Forall keyed body -> blank_first rest ->
  process i Top ((head2r a b c :: t2 :: cells) :: body ++ rest) =
    (numbered (S i) (map (fun row => J2r row a b c hs) body) ++ fst (process (S i + length body) Top rest),
     snd (process (S i + length body) Top rest)).
Proof.
  intros i a b c t2 cells hs body rest Ha Hb Hc Hh F B. cbn [process step_row].
  rewrite top_table2dr, (heads_ok _ _ _ _ Hh).
  change (lit "$col") with (36%N :: lit "col"). change (lit "$row") with (36%N :: lit "row").
  rewrite (t2_ok (lit "row") (lit "col") a b c Ha Hb Hc). cbn [map app].
  rewrite (process_body (M2r (Some (a, b, c)) hs) (fun row => J2r row a b c hs) keyed).
  - rewrite process_end by exact B. reflexivity.
  - intros row K. cbn [step_row]. apply in_table_spec in K. now rewrite K.
  - exact F.
Qed.

(** A table with a path for each column: its rows have a blank first cell and at least two
    cells. *)
Definition unkeyed (row : list pystr) : Prop := exists x more, row = [] :: x :: more.
Definition ends2dx (rows : list (list pystr)) : Prop := match rows with [] => True | row :: _ => ~ unkeyed row end.
Lemma in_table2dx_spec row : in_table2dx row = true <-> unkeyed row.
Proof.
  unfold unkeyed. destruct row as [|[|c s] [|x row]]; cbn; split; try discriminate; try (intros (y & m & E); discriminate E).
  - eauto. - reflexivity.
Qed.
Lemma t1_all_ok ps : Forall (fun p => no_dollar (fst p) /\ one_line (snd p)) ps ->
  t1_all (map (fun p => fst p ++ lit "$row" ++ snd p) ps) = Ok ps.
Proof.
  induction 1 as [|[a b] ps [Ha Hb] _ IH]; cbn [map t1_all fst snd] in *; [reflexivity|].
  rewrite (t1_ok a b Ha Hb), IH. reflexivity.
Qed.
Theorem C66_table2dx : forall i ps cells body rest, ps <> [] ->
  Forall (fun p => no_dollar (fst p) /\ one_line (snd p) /\ ~ In 44%N (fst p ++ snd p)) ps ->
  Forall unkeyed body -> ends2dx rest ->
  process i Top ((head2x ps :: cells) :: body ++ rest) =
    (numbered (S i) (map (fun row => J2x row ps) body) ++ fst (process (S i + length body) Top rest),
     snd (process (S i + length body) Top rest)).
Proof.
  intros i ps cells body rest Np Fp F B. cbn [process step_row].
  assert (top_row (head2x ps :: cells) = Ok (M2x ps, [])) as ->.
  { unfold top_row. cbn [cell0].
    assert (exists r, head2x ps = 116%N :: r) as (r & E) by (eexists; reflexivity).
    assert (firstn 8 (head2x ps) = lit "table2dx") as E8 by reflexivity.
    assert (firstn 9 (head2x ps) = lit "table2dx(") as E9 by reflexivity.
    assert (inner 9 (head2x ps) = join (lit ",") (map (fun p => fst p ++ lit "$row" ++ snd p) ps)) as Ei.
    { unfold inner, head2x. change (lit ")") with [41%N]. rewrite !app_assoc, removelast_snoc. reflexivity. }
    rewrite E8, E9, Ei. change (streq (lit "table2dx") (lit "table1d(")) with false.
    change (streq (lit "table2dx") (lit "table2d(")) with false.
    change (streq (lit "table2dx(") (lit "table2dr(")) with false.
    change (streq (lit "table2dx(") (lit "table2dx(")) with true.
    change (lit ",") with [44%N]. rewrite split_join.
    - rewrite t1_all_ok; [rewrite E; reflexivity|]. eapply Forall_impl; [|exact Fp]. cbn beta. tauto.
    - intro H. apply map_eq_nil in H. contradiction.
    - apply Forall_map. eapply Forall_impl; [|exact Fp]. intros [a b] (_ & _ & N). cbn [fst snd] in *.
      rewrite !in_app_iff in *. intros [H|[H|H]]; [tauto| |tauto]. cbn in H. intuition discriminate. }
  cbn [map app].
  rewrite (process_body (M2x ps) (fun row => J2x row ps) unkeyed).
  - rewrite process_end; [reflexivity|]. destruct rest as [|row rest]; [exact I|]. cbn [ends2dx] in B.
    destruct (in_table2dx row) eqn:E; [apply in_table2dx_spec in E; contradiction|reflexivity].
  - intros row K. cbn [step_row]. apply in_table2dx_spec in K. now rewrite K.
  - exact F.
Qed.

(** ** A row of its own *)
Theorem C66_blank : forall i row rest, ~ keyed row -> process i Top (row :: rest) = process (S i) Top rest.
Proof.
  intros i row rest N. cbn [process step_row]. assert (cell0 row = []) as E.
  { destruct row as [|[|c s] row]; try reflexivity. exfalso. apply N. exists (c :: s). split; [reflexivity|discriminate]. }
  unfold top_row. rewrite E. cbn [map app]. now destruct (process (S i) Top rest).
Qed.

Definition not_table (t : pystr) : Prop :=
  firstn 8 t <> lit "table1d(" /\ firstn 8 t <> lit "table2d(" /\ firstn 9 t <> lit "table2dr(" /\ firstn 9 t <> lit "table2dx(".
(** what a path says about the cell: it ends with an element, with an attribute and its value,
    or with an attribute without a value *)
Definition parents (pre : pystr) : Prop := pre = [] \/ exists p, pre = p ++ [47%N].
Definition without (cs s : pystr) : Prop := forall c, In c cs -> ~ In c s.
Inductive kind : pystr -> option pystr -> Prop :=
| KElem pre name : parents pre -> name <> [] -> without (lit "/[") name -> kind (pre ++ name) None
| KValue pre name att q v : parents pre -> name <> [] -> without (lit "/[") name -> att <> [] -> without (lit "/=") att ->
    q = 34%N \/ q = 39%N -> v <> [] -> without [47%N; 10%N] v ->
    kind (pre ++ name ++ lit "[@" ++ att ++ [61%N; q] ++ v ++ [q; 93%N]) None
| KAttr pre name att : parents pre -> name <> [] -> without (lit "/[") name -> att <> [] -> without (lit "/=]") att ->
    kind (pre ++ name ++ lit "[@" ++ att ++ lit "]") (Some att).

Lemma split_both c p s : split_on c (p ++ c :: s) = split_on c p ++ split_on c s.
Proof.
  induction p as [|x p IH]; cbn [app split_on]; [now rewrite N.eqb_refl|]. destruct (N.eqb x c); [now rewrite IH|].
  rewrite IH. destruct (split_on c p) eqn:E; [now apply split_on_nonempty in E|reflexivity].
Qed.
Lemma split_last c p s : ~ In c s -> last (split_on c (p ++ c :: s)) [] = s.
Proof. intro N. rewrite split_both, (split_on_nosep c s N). apply last_last. Qed.
Lemma last_step pre s : parents pre -> ~ In 47%N s -> last (split_on 47%N (pre ++ s)) [] = s.
Proof.
  intros [->|(p & ->)] N; cbn [app].
  - now rewrite split_on_nosep.
  - rewrite <- app_assoc. now apply split_last.
Qed.
Lemma span_none x s : ~ In x s -> span_not x s = (s, []).
Proof.
  induction s as [|c s IH]; intro N; cbn [span_not]; [reflexivity|].
  destruct (N.eqb_spec c x) as [->|_]; [exfalso; apply N; now left|]. rewrite IH; [reflexivity|]. intro H. apply N. now right.
Qed.
Lemma closes_ok q v : v <> [] -> ~ In 10%N v -> closes q (v ++ [q; 93%N]) = true.
Proof.
  intros Nv. destruct v as [|c v]; [contradiction|clear Nv]. revert c. induction v as [|d v IH]; intros c N; cbn [app closes].
  - destruct (N.eqb_spec c newline) as [->|_]; [exfalso; apply N; now left|]. now rewrite N.eqb_refl.
  - destruct (N.eqb_spec c newline) as [->|_]; [exfalso; apply N; now left|].
    assert (closes q (d :: v ++ [q; 93%N]) = true) as R by (apply IH; intro H; apply N; now right).
    destruct (v ++ [q; 93%N]) eqn:E; [destruct v; discriminate E|].
    destruct (_ && _)%bool; [reflexivity|exact R].
Qed.
Lemma before_none s : ~ In 93%N (tl s) -> before_last s = None.
Proof.
  induction s as [|c s IH]; intro N; [reflexivity|]. cbn [before_last tl] in *. rewrite IH.
  - destruct s as [|d s]; [reflexivity|]. destruct (N.eq_dec d 93) as [->|D]; [exfalso; apply N; now left|].
    destruct d as [|p]; [reflexivity|]. do 7 (destruct p as [p|p|]; try reflexivity). contradiction.
  - destruct s as [|d s]; [exact N|]. intro H. apply N. now right.
Qed.
Lemma before_last_ok att : att <> [] -> ~ In 93%N att -> before_last (att ++ [93%N]) = Some att.
Proof.
  induction att as [|c att IH]; intros Nn N; [contradiction|]. cbn [app before_last].
  destruct att as [|d att]; [reflexivity|]. rewrite IH; [reflexivity|discriminate|]. intro H. apply N. now right.
Qed.
Lemma kind_match t a : kind t a -> t <> [] /\
  exists m, e_match (last (split_on 47%N t) []) = Some m /\ (match m with Some (n, false) => Some n | _ => None end) = a.
Proof.
  assert (N47 : forall s, without (lit "/[") s -> ~ In 47%N s) by (intros s W; apply W; now left).
  assert (N91 : forall s, without (lit "/[") s -> ~ In 91%N s) by (intros s W; apply W; right; now left).
  intros [pre name P Nn W|pre name att q v P Nn W Na Wa Q Nv Wv|pre name att P Nn W Na Wa].
  - split; [destruct pre; [exact Nn|discriminate]|]. rewrite last_step by auto. exists None. split; [|reflexivity].
    unfold e_match. rewrite span_none by auto. destruct name; [contradiction|reflexivity].
  - split; [destruct pre; [destruct name; [contradiction|discriminate]|discriminate]|].
    rewrite last_step; [|exact P|].
    2:{ assert (A47 : ~ In 47%N att) by (apply Wa; now left). assert (V47 : ~ In 47%N v) by (apply Wv; now left).
        specialize (N47 _ W). rewrite !in_app_iff. cbn. intuition (subst; discriminate). }
    exists (Some (att, true)). split; [|reflexivity]. unfold e_match.
    change (lit "[@" ++ att ++ [61%N; q] ++ v ++ [q; 93%N]) with (91%N :: 64%N :: (att ++ 61%N :: q :: v ++ [q; 93%N])).
    rewrite span_app by auto. destruct name as [|n0 name]; [contradiction|].
    change (strip_prefix (lit "[@") (91%N :: 64%N :: att ++ 61%N :: q :: v ++ [q; 93%N])) with (Some (att ++ 61%N :: q :: v ++ [q; 93%N])).
    cbn iota beta. rewrite span_app by (apply Wa; right; now left). destruct att as [|a0 att]; [contradiction|].
    rewrite closes_ok by (auto; apply Wv; right; now left). destruct Q as [->| ->]; reflexivity.
  - split; [destruct pre; [destruct name; [contradiction|discriminate]|discriminate]|].
    rewrite last_step; [|exact P|].
    2:{ assert (A47 : ~ In 47%N att) by (apply Wa; now left).
        specialize (N47 _ W). rewrite !in_app_iff. cbn. intuition (subst; discriminate). }
    exists (Some (att, false)). split; [|reflexivity]. unfold e_match.
    change (lit "[@" ++ att ++ lit "]") with (91%N :: 64%N :: (att ++ [93%N])).
    rewrite span_app by auto. destruct name as [|n0 name]; [contradiction|].
    change (strip_prefix (lit "[@") (91%N :: 64%N :: att ++ [93%N])) with (Some (att ++ [93%N])).
    cbn iota beta. rewrite span_none.
    2:{ rewrite in_app_iff. assert (~ In 61%N att) by (apply Wa; right; now left). cbn. intuition discriminate. }
    destruct (att ++ [93%N]) eqn:E; [destruct att; discriminate E|]. rewrite <- E, before_last_ok; [reflexivity|exact Na|].
    apply Wa. right. right. now left.
Qed.
Theorem C66_item : forall i t a c1 v more rest, kind t a -> not_table t ->
  process i Top ((t :: c1 :: v :: more) :: rest) =
    ((i, JItem (t :: c1 :: v :: more) t a) :: fst (process (S i) Top rest), snd (process (S i) Top rest)).
Proof.
  intros i t a c1 v more rest K (N1 & N2 & N3 & N4). destruct (kind_match t a K) as (Nt & m & E & <-).
  cbn [process step_row]. unfold top_row. cbn [cell0]. destruct t as [|t0 t]; [contradiction|].
  destruct (streq_spec (firstn 8 (t0 :: t)) (lit "table1d(")); [contradiction|].
  destruct (streq_spec (firstn 8 (t0 :: t)) (lit "table2d(")); [contradiction|].
  destruct (streq_spec (firstn 9 (t0 :: t)) (lit "table2dr(")); [contradiction|].
  destruct (streq_spec (firstn 9 (t0 :: t)) (lit "table2dx(")); [contradiction|].
  rewrite E. cbn [nth_error map app]. now destruct (process (S i) Top rest).
Qed.

(** ** There and back *)
(** the text a path is left with: the last one written *)
Fixpoint final_text (ws : list write) (p : pystr) : option pystr :=
  match ws with
  | [] => None
  | w :: ws' => match final_text ws' p with
                | Some v => Some v
                | None => match w with WText q v => if streq q p then Some v else None | WPath _ => None end
                end
  end.
(** the document holds what was written to it, and nothing at the other paths of the sheet *)
Definition remembers (find : pystr -> option found) (ws : list write) (js : list job) : Prop :=
  forall j k p, In j js -> spot j k p ->
  match final_text ws p with
  | Some v => exists e, find p = Some e /\ f_text e = Some v
  | None => find p = None
  end.
(** cells with the same path have the same content *)
Definition agreeing (js : list job) : Prop :=
  forall j1 j2 k1 k2 p v, In j1 js -> In j2 js -> spot j1 k1 p -> spot j2 k2 p -> has (job_row j1) k1 v -> has (job_row j2) k2 v.
Definition attribute_item (j : job) : Prop := exists row path a, j = JItem row path (Some a).

Lemma final_text_in ws p v : final_text ws p = Some v -> In (WText p v) ws.
Proof.
  induction ws as [|w ws IH]; cbn [final_text]; [discriminate|].
  destruct (final_text ws p) as [v'|]; [intro H; injection H as ->; right; auto|].
  destruct w as [q v'|q]; [|discriminate]. destruct (streq_spec q p) as [->|_]; [|discriminate].
  intro H. injection H as ->. now left.
Qed.
Lemma final_text_none ws p : final_text ws p = None -> forall v, ~ In (WText p v) ws.
Proof.
  induction ws as [|w ws IH]; cbn [final_text]; [intros _ v []|].
  destruct (final_text ws p) as [v'|]; [discriminate|]. intros E v [->|H]; [|now apply (IH eq_refl v)].
  destruct (streq_spec p p); [discriminate|contradiction].
Qed.
Lemma back_text js j k p find : agreeing js -> remembers find (flat_map ldml_writes js) js -> In j js -> spot j k p ->
  forall v, has (job_row j) k v <-> exists e, find p = Some e /\ f_text e = Some v.
Proof.
  intros A R Hj Sp v. specialize (R j k p Hj Sp). destruct (final_text _ p) as [v'|] eqn:E.
  - destruct R as (e & F & T). apply final_text_in, in_flat_map in E as (j' & Hj' & E).
    apply C66_texts in E as (k' & Sp' & H'). assert (G := A j' j k' k p v' Hj' Hj Sp' Sp H'). split.
    + intro H. exists e. split; [exact F|]. destruct G as [G _], H as [H _]. congruence.
    + intros (e' & F' & T'). assert (v' = v) as <- by congruence. exact G.
  - rewrite R. split; [|intros (e & F & _); discriminate F].
    intro H. exfalso. apply (final_text_none _ _ E v), in_flat_map. exists j. split; [exact Hj|]. apply C66_texts. eauto.
Qed.
(** Going back puts into every cell that is not blank what it holds, and touches no other. *)
Theorem C66_back : forall find js j, agreeing js -> remembers find (flat_map ldml_writes js) js -> In j js ->
  ~ attribute_item j -> forall col t, In (col, t) (ods_writes find j) <->
  exists k p v, spot j k p /\ has (job_row j) k v /\ col = k + 2 /\ t = Some v.
Proof.
  intros find js j A R Hj NA col t. rewrite C66_cells by (intros row path a ->; apply NA; unfold attribute_item; eauto).
  split.
  - intros (k & p & e & Sp & -> & F & T & N). assert (B := back_text js j k p find A R Hj Sp).
    assert (exists v, f_text e = Some v) as (v & E).
    { specialize (R j k p Hj Sp). destruct (final_text _ p) as [v|].
      - destruct R as (e' & F' & T'). exists v. congruence. - congruence. }
    exists k, p, v. split; [exact Sp|]. split; [|split; [reflexivity|congruence]]. apply B. eauto.
  - intros (k & p & v & Sp & H & -> & ->). assert (B := back_text js j k p find A R Hj Sp).
    apply B in H as H'. destruct H' as (e & F & T). exists k, p, e. repeat split; auto. destruct H as [_ N]. congruence.
Qed.

Lemma replaced_same {A} (l : list A) n v : nth_error l n = Some v -> replaced l n v = l.
Proof. 
  unfold replaced. revert n. induction l as [|x l IH]; intros [|n] E; try discriminate; cbn [firstn skipn app nth_error] in *.
  - now injection E as ->.
  - f_equal. now apply IH.
Qed.
Lemma write_same ws : forall r, tidy r -> Forall short r ->
  Forall (fun w => exists k, fst w = k + 2 /\ nth_error (read_row r) k = Some (snd w)) ws ->
  exists r', write_all (map (fun w => (Z.of_nat (fst w), snd w)) ws) r = Ok r' /\ read_row r' = read_row r.
Proof.
  induction ws as [|[c v] ws IH]; intros r T Sh F; cbn [map write_all fst snd].
  - eauto.
  - inversion F as [|? ? (k & Ec & Hk) F']; subst. cbn [fst snd] in *. subst c.
    assert (Hc : (2 <= Z.of_nat (k + 2) <= cols r)%Z).
    { assert (k < length (read_row r)) as L by (apply nth_error_Some; congruence).
      rewrite C57_read in L by exact Sh. unfold texts in L. unfold cols. destruct (columns r) as [|x l]; cbn [map tl] in L.
      - cbn in L. lia. - rewrite map_length in L. cbn [length]. lia. }
    destruct (write_tidy r (Z.of_nat (k + 2)) v T) as (r1 & W & T1 & _); [lia|].
    destruct (C57_roundtrip r (Z.of_nat (k + 2)) v T Sh Hc) as (r1' & W' & Sh1 & R1).
    assert (r1' = r1) as -> by congruence.
    replace (Z.to_nat (Z.of_nat (k + 2)) - 2)%nat with k in R1 by lia. rewrite (replaced_same _ _ _ Hk) in R1.
    rewrite W. cbn [bind]. rewrite <- R1. apply IH; [exact T1|exact Sh1|]. now rewrite R1.
Qed.
(** The row of the spreadsheet reads as before. *)
Theorem C66_sheet_kept : forall find js j r, agreeing js -> remembers find (flat_map ldml_writes js) js -> In j js ->
  ~ attribute_item j -> tidy r -> Forall short r -> read_row r = job_row j ->
  exists ws r', ods_writes find j = map (fun w => (fst w, Some (snd w))) ws /\
    write_all (map (fun w => (Z.of_nat (fst w), snd w)) ws) r = Ok r' /\ read_row r' = read_row r.
Proof.
  intros find js j r A R Hj NA T Sh Er. assert (B := C66_back find js j A R Hj NA).
  assert (exists ws, ods_writes find j = map (fun w => (fst w, Some (snd w))) ws) as (ws & Ew).
  { assert (forall w, In w (ods_writes find j) -> exists c v, w = (c, Some v)) as G.
    { intros [c t] H. apply B in H as (k & p & v & _ & _ & _ & ->). eauto. }
    clear B. induction (ods_writes find j) as [|w l IH]; [exists []; reflexivity|].
    destruct (G w) as (c & v & ->); [now left|]. destruct IH as (ws & ->); [intros w H; apply G; now right|].
    exists ((c, v) :: ws). reflexivity. }
  destruct (write_same ws r T Sh) as (r' & W & Rr).
  - apply Forall_forall. intros [c v] Hw. cbn [fst snd].
    assert (In (c, Some v) (ods_writes find j)) as H by (rewrite Ew; apply in_map_iff; exists (c, v); auto).
    apply B in H as (k & p & v' & _ & [Hh _] & -> & E). injection E as <-. exists k. rewrite Er. auto.
  - exists ws, r'. auto.
Qed.
(** The value of an attribute that is found goes into the cell of its path. *)
Theorem C66_attribute_cell : forall find row path a col t, In (col, t) (ods_writes find (JItem row path (Some a))) <->
  exists e v, find path = Some e /\ dget streq (f_attrs e) a = Some v /\ v <> [] /\ col = 4 /\ t = Some v.
Proof.
  intros find row path a col t. cbn [ods_writes]. destruct (find path) as [e|].
  - rewrite in_put_value. destruct (dget streq (f_attrs e) a) as [v|] eqn:E.
    + split.
      * intros [H N]. injection H as -> ->. exists e, v. repeat split; auto. congruence.
      * intros (e' & v' & F & D & N & -> & ->). injection F as <-. assert (v' = v) as -> by congruence. split; [reflexivity|congruence].
    + split; [intros [_ H]; congruence|]. intros (e' & v' & F & D & _). congruence.
  - split; [intros []|]. intros (e & v & F & _). discriminate.
Qed.

(** ** Where it goes wrong *)
(** A table that follows another without a blank row is taken for data of the first. *)
Theorem C66_adjacent_refuted : exists h1 r1 h2 r2, fst (process 0 Top [h1; r1; h2; r2]) =
  [(1, J1 r1 (lit "a/") (lit "")); (2, J1 h2 (lit "a/") (lit "")); (3, J1 r2 (lit "a/") (lit ""))] /\
  fst (process 0 Top [h1; r1; []; h2; r2]) = [(1, J1 r1 (lit "a/") (lit "")); (4, J1 r2 (lit "b/") (lit ""))].
Proof.
  exists [lit "table1d(a/$row)"], [lit "x"; lit "ex"; lit "1"], [lit "table1d(b/$row)"], [lit "y"; lit "why"; lit "2"].
  split; reflexivity.
Qed.
(** An element without text overwrites its cell, if it holds something or not, with None. *)
Theorem C66_no_text_refuted : exists find row p, process 0 Top [row] = ([(0, JItem row p None)], None) /\
  ods_writes find (JItem row p None) = [(4, None)].
Proof.
  exists (fun _ => Some {| f_attrs := []; f_text := None |}), [lit "a/b"; lit "bee"; lit "1"], (lit "a/b"). split; reflexivity.
Qed.
(** A row without a third cell stops everything, and so does a table without $row. *)
Theorem C66_short_refuted : exists row rest, process 0 Top (row :: rest) = ([], Some IndexError) /\
  fst (process 0 Top rest) <> [].
Proof.
  exists [lit "a/b"; lit "bee"], [[lit "a/c"; lit "sea"; lit "1"]]. split; [reflexivity|discriminate].
Qed.
Theorem C66_bad_table_refuted : exists head row rest, process 0 Top (head :: row :: rest) = ([], Some AttributeError) /\
  process 0 Top [head] = ([], None) /\ fst (process 0 Top ([] :: rest)) <> [].
Proof.
  exists [lit "table1d(a/b)"], [lit "x"; lit "ex"; lit "1"], [[]; [lit "a/c"; lit "sea"; lit "1"]].
  split; [reflexivity|]. split; [reflexivity|discriminate].
Qed.
(** Only the first attribute of the last step counts: the second is not filled in, but the text of
    the element is. *)
Theorem C66_second_attribute_refuted : exists path row, path = lit "a/b[@c='d'][@e]" /\
  process 0 Top [row] = ([(0, JItem row path None)], None) /\
  ldml_writes (JItem row path None) = [WText path (lit "f")].
Proof. exists (lit "a/b[@c='d'][@e]"), [lit "a/b[@c='d'][@e]"; lit "x"; lit "f"]. repeat split; reflexivity. Qed.

(** ** The hypotheses can be met *)
Example ex_sheet : list (list pystr) :=
  [[lit "localeDisplayNames/x[@y]"; lit "an attribute"; lit "v"];
   [lit "ldml/identity/name"; lit "a name"; lit "En"];
   [];
   [lit "table2d(ldml/day[@w='$col']/d[@t='$row']/x)"; lit ""; lit "wide"; lit "short"; lit ""; lit "note"];
   [lit "sun"; lit "Sunday"; lit "Sonntag"; lit "So"];
   [lit "mon"; lit "Monday"; lit "Montag"; lit ""];
   [lit ""; lit ""];
   [lit "table2dx(tz[@z='$row']/city,tz[@z='$row']/long)"];
   [lit ""; lit "Europe/Paris"; lit "Paris"; lit "CET"];
   [lit ""; lit "Asia/Dili"; lit ""; lit "TLT"];
   [lit "table1d(lang[@l='$row'])"];
   [lit "fr"; lit "French"; lit "Franz"]].
Example ex_jobs : list job := map snd (fst (process 0 Top ex_sheet)).
Example ex_process : snd (process 0 Top ex_sheet) = None /\
  flat_map ldml_writes ex_jobs =
    [WPath (lit "localeDisplayNames/x[@y='v']");
     WText (lit "ldml/identity/name") (lit "En");
     WText (lit "ldml/day[@w='wide']/d[@t='sun']/x") (lit "Sonntag");
     WText (lit "ldml/day[@w='short']/d[@t='sun']/x") (lit "So");
     WText (lit "ldml/day[@w='wide']/d[@t='mon']/x") (lit "Montag");
     WText (lit "tz[@z='Europe/Paris']/city") (lit "Paris");
     WText (lit "tz[@z='Europe/Paris']/long") (lit "CET");
     WText (lit "tz[@z='Asia/Dili']/long") (lit "TLT");
     WText (lit "lang[@l='fr']") (lit "Franz")].
Proof. split; vm_compute; reflexivity. Qed.
Example ex_kind : kind (lit "localeDisplayNames/x[@y]") (Some (lit "y")) /\ kind (lit "a/b[@c='d']") None /\ kind (lit "name") None.
Proof.
  split; [|split].
  - apply (KAttr (lit "localeDisplayNames/") (lit "x") (lit "y")); try discriminate.
    + right. exists (lit "localeDisplayNames"). reflexivity.
    + intros c Hc. cbn in Hc. repeat (destruct Hc as [<-|Hc]; [cbn; intuition discriminate|]). destruct Hc.
    + intros c Hc. cbn in Hc. repeat (destruct Hc as [<-|Hc]; [cbn; intuition discriminate|]). destruct Hc.
  - apply (KValue (lit "a/") (lit "b") (lit "c") 39%N (lit "d")); try discriminate; auto.
    + right. exists (lit "a"). reflexivity.
    + intros c Hc. cbn in Hc. repeat (destruct Hc as [<-|Hc]; [cbn; intuition discriminate|]). destruct Hc.
    + intros c Hc. cbn in Hc. repeat (destruct Hc as [<-|Hc]; [cbn; intuition discriminate|]). destruct Hc.
    + intros c Hc. cbn in Hc. repeat (destruct Hc as [<-|Hc]; [cbn; intuition discriminate|]). destruct Hc.
  - apply (KElem [] (lit "name")); [now left|discriminate|].
    intros c Hc. cbn in Hc. repeat (destruct Hc as [<-|Hc]; [cbn; intuition discriminate|]). destruct Hc.
Qed.
(** a sheet with a table of one row: its cells agree and a document can remember it *)
Example ex_back : exists js find r, js = map snd (fst (process 0 Top [[lit "table1d(l[@l='$row'])"]; [lit "fr"; lit "French"; lit "Franz"]])) /\
  agreeing js /\ remembers find (flat_map ldml_writes js) js /\ js <> [] /\ (forall j, In j js -> ~ attribute_item j) /\
  tidy r /\ Forall short r /\ (forall j, In j js -> read_row r = job_row j).
Proof.
  set (row := [lit "fr"; lit "French"; lit "Franz"]). set (j := J1 row (lit "l[@l='") (lit "']")).
  set (cell := fun s => mkR true None [Para true [Txt s]]).
  exists [j], (fun p => if streq p (lit "l[@l='fr']") then Some {| f_attrs := []; f_text := Some (lit "Franz") |} else None),
    [mkR true None []; cell (lit "fr"); cell (lit "French"); cell (lit "Franz")].
  split; [reflexivity|]. split; [|split; [|split; [discriminate|split; [|split; [|split]]]]].
  - intros j1 j2 k1 k2 p v [<-|[]] [<-|[]] S1 S2. inversion S1; inversion S2; subst. trivial.
  - intros j1 k p [<-|[]] S1. inversion S1; subst. vm_compute. eauto.
  - intros j1 [<-|[]] (r & p & a & E). discriminate E.
  - intros n Hn Hc. cbn in Hn. repeat (destruct Hn as [<-|Hn]; [unfold repcount; cbn; split; [lia|split; [|auto]]; unfold simple; eauto 8|]). destruct Hn.
  - repeat (constructor; [intros _; unfold repcount; cbn; lia|]). constructor.
  - intros j1 [<-|[]]. reflexivity.
Qed.
