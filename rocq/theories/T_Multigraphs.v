(** C96: counting the possible multigraphs of a text. *)
From Coq Require Import String.
From Verif Require Import Py PyFacts M_UnicodeSets M_Exemplars M_Multigraphs.
Local Open Scope list_scope.
Local Open Scope nat_scope.

(** * Specification *)
(** how often [w] stands in a text, at any place *)
Fixpoint occurrences (w s : pystr) : nat :=
  (if list_eq_dec N.eq_dec (firstn (length w) s) w then 1 else 0) +
  match s with [] => 0 | _ :: s' => occurrences w s' end.
Definition ends_in (w s : pystr) : Prop := exists a, s = a ++ w.
(** a text of which every character stands for itself: none is part of a cluster *)
Definition no_clusters (u : ucd) (s : pystr) : Prop := forall c, In c s -> c <> zwj /\ c <> zwnj /\ u_mark u c = false.
(** what is counted for [w] *)
Definition counted (d : counter) (w : pystr) : nat := match dget ex_eqb d (w, []) with Some n => n | None => 0 end.

(** * Proof *)
Lemma ex_eqb_spec a b : reflect (a = b) (ex_eqb a b).
Proof.
  destruct a as [a a'], b as [b b']. unfold ex_eqb. cbn [fst snd].
  destruct (streq_spec a b) as [->|N1]; [destruct (streq_spec a' b') as [->|N2]|]; cbn; constructor; congruence.
Qed.
Lemma counted_add d x w : counted (cadd d (x, []) 1) w = counted d w + (if list_eq_dec N.eq_dec x w then 1 else 0).
Proof.
  unfold counted, cadd, cget. rewrite (dget_dset _ ex_eqb_spec). destruct (list_eq_dec N.eq_dec x w) as [->|NE].
  - destruct (ex_eqb_spec (w, []) (w, @nil N)) as [_|C]; [reflexivity|congruence].
  - destruct (ex_eqb_spec (w, []) (x, @nil N)) as [C|_]; [congruence|lia].
Qed.
Definition one (x w : pystr) : nat := if list_eq_dec N.eq_dec x w then 1 else 0.
Lemma counted_prefixes s d w : counted (count_prefixes s d) w = counted d w + one (firstn 4 s) w + one (firstn 3 s) w + one (firstn 2 s) w + one (firstn 1 s) w.
Proof. unfold count_prefixes. cbn [fold_left]. rewrite !counted_add. reflexivity. Qed.

Section Proof.
  Variable u : ucd.
  Variables (preset : pystr -> bool) (maxlen : nat).
  (** ** C96: the option does not change what is collected *)
  Theorem C96_same_clusters : forall fuel s st d,
    process_loop u preset maxlen fuel s st = match process_multi u preset maxlen fuel s st d with Ok r => Ok (fst r) | Raise e => Raise e end.
  Proof.
    induction fuel as [|fuel IH]; intros s st d; destruct s as [|c s]; try reflexivity. cbn [process_loop process_multi].
    destruct (find_multi preset maxlen (c :: s)) as [k|].
    - destruct (single u (skipn k (c :: s)) _) as [s2 st2]. apply IH.
    - destruct (single u (c :: s) st) as [s2 st2]. apply IH.
  Qed.
End Proof.

(** a round of a text without clusters takes one character *)
Lemma single_one u c s st : no_clusters u (c :: s) -> fst (single u (c :: s) st) = s.
Proof.
  intros H. unfold single. destruct (ispunct u c); [reflexivity|].
  match goal with |- context [negb (allowable u ?x)] => destruct (negb (allowable u x)); [reflexivity|] end.
  assert (cluster_end u s 1 1 = (1, 1)) as ->; [|reflexivity].
  destruct s as [|t s]; [reflexivity|]. cbn [cluster_end]. destruct (H t) as (H1 & H2 & H3); [right; now left|].
  destruct (N.eqb_spec t zwj); [congruence|]. destruct (N.eqb_spec t zwnj); [congruence|]. now rewrite H3.
Qed.
Lemma no_multi k s : find_multi (fun _ => false) k s = None.
Proof. induction k as [|k IH]; [reflexivity|exact IH]. Qed.
Lemma one_short k s w : s <> w -> k <> length w -> one (firstn k s) w = 0.
Proof.
  intros NE K. unfold one. destruct (list_eq_dec N.eq_dec (firstn k s) w) as [E|]; [|reflexivity]. exfalso.
  pose proof (f_equal (@length N) E) as L. rewrite firstn_length in L. apply NE. rewrite <- E. symmetry. apply firstn_all2. lia.
Qed.
Lemma one_self k w : one (firstn k w) w = if length w <=? k then 1 else 0.
Proof.
  unfold one. destruct (Nat.leb_spec (length w) k) as [H|H].
  - rewrite firstn_all2 by exact H. destruct (list_eq_dec N.eq_dec w w); congruence.
  - destruct (list_eq_dec N.eq_dec (firstn k w) w) as [E|]; [|reflexivity]. pose proof (f_equal (@length N) E) as L. rewrite firstn_length in L. lia.
Qed.
(** the number of the lengths up to 4 for which the slice of [s] is [w] *)
Lemma slices w s : w <> [] -> length w <= 4 ->
  one (firstn 4 s) w + one (firstn 3 s) w + one (firstn 2 s) w + one (firstn 1 s) w =
  one (firstn (length w) s) w + (if list_eq_dec N.eq_dec s w then 4 - length w else 0).
Proof.
  intros Hw L. assert (length w = 1 \/ length w = 2 \/ length w = 3 \/ length w = 4) as C by (destruct w; [congruence|cbn in *; lia]).
  destruct (list_eq_dec N.eq_dec s w) as [->|NE].
  - rewrite !one_self. destruct C as [->|[->|[->| ->]]]; reflexivity.
  - destruct C as [C|[C|[C|C]]]; rewrite C; rewrite ?(one_short 1 s w NE), ?(one_short 2 s w NE), ?(one_short 3 s w NE), ?(one_short 4 s w NE) by lia; lia.
Qed.
Definition tail_dec (w s : pystr) : {ends_in w s} + {~ ends_in w s}.
Proof.
  induction s as [|c s IH].
  - destruct w as [|x w]; [left; now exists []|right]. intros (a & E). destruct a; discriminate.
  - destruct (list_eq_dec N.eq_dec (c :: s) w) as [<-|NE]; [left; now exists []|]. destruct IH as [H|H].
    + left. destruct H as (a & ->). now exists (c :: a).
    + right. intros ([|x a] & E); cbn in E; [congruence|]. injection E as _ E. apply H. now exists a.
Defined.
Definition extra (w s : pystr) : nat := if tail_dec w s then 4 - length w else 0.
Lemma extra_cons w c s : extra w (c :: s) = (if list_eq_dec N.eq_dec (c :: s) w then 4 - length w else 0) + (if list_eq_dec N.eq_dec (c :: s) w then 0 else extra w s).
Proof.
  unfold extra. destruct (list_eq_dec N.eq_dec (c :: s) w) as [<-|NE].
  - destruct (tail_dec (c :: s) (c :: s)) as [_|H]; [lia|]. exfalso. apply H. now exists [].
  - destruct (tail_dec w (c :: s)) as [H|H], (tail_dec w s) as [H'|H']; try lia; exfalso.
    + destruct H as ([|x a] & E); cbn in E; [congruence|]. injection E as _ E. apply H'. now exists a.
    + apply H. destruct H' as (a & ->). now exists (c :: a).
Qed.
Lemma extra_self c s : extra (c :: s) s = 0.
Proof.
  unfold extra. destruct (tail_dec (c :: s) s) as [(a & E)|]; [|reflexivity]. exfalso. apply (f_equal (@length N)) in E.
  rewrite app_length in E. cbn in E. lia.
Qed.
(** ** C96: what is counted, of a text of single characters with nothing given beforehand: every
    string of one to four characters as often as it stands in the text, and the end of the text too
    often *)
Theorem C96_counted : forall u maxlen s st, no_clusters u s -> exists st' d,
  process_multi u (fun _ => false) maxlen (length s) s st [] = Ok (st', d) /\
  forall w, w <> [] -> length w <= 4 ->
    (ends_in w s -> counted d w = occurrences w s + (4 - length w)) /\
    (~ ends_in w s -> counted d w = occurrences w s).
Proof.
  intros u maxlen s st NC.
  assert (forall d0 st, exists st' d, process_multi u (fun _ => false) maxlen (length s) s st d0 = Ok (st', d) /\
    forall w, w <> [] -> length w <= 4 -> counted d w = counted d0 w + occurrences w s + extra w s) as G.
  { clear st. induction s as [|c s IH]; intros d0 st.
    - exists st, d0. split; [reflexivity|]. intros w Hw L. cbn [occurrences]. rewrite firstn_nil. destruct (list_eq_dec N.eq_dec [] w) as [<-|_]; [congruence|].
      unfold extra. destruct (tail_dec w []) as [(a & E)|_]; [|lia]. exfalso. destruct a, w; cbn in E; congruence.
    - cbn [length process_multi]. rewrite no_multi. pose proof (single_one u c s st NC) as S1. destruct (single u (c :: s) st) as [s2 st2]. cbn [fst] in S1. subst s2.
      destruct (IH (fun x Hx => NC x (or_intror Hx)) (count_prefixes (c :: s) d0) st2) as (st' & d & E & H). exists st', d. split; [exact E|].
      intros w Hw L. rewrite (H w Hw L), counted_prefixes, extra_cons. pose proof (slices w (c :: s) Hw L) as S2.
      change (occurrences w (c :: s)) with (one (firstn (length w) (c :: s)) w + occurrences w s).
      destruct (list_eq_dec N.eq_dec (c :: s) w) as [E2|NE]; [|lia]. pose proof (extra_self c s) as X. rewrite E2 in X. lia. }
  destruct (G [] st) as (st' & d & E & H). exists st', d. split; [exact E|]. intros w Hw L. pose proof (H w Hw L) as Q. unfold extra in Q.
  change (counted [] w) with 0 in Q. destruct (tail_dec w s) as [Y|Nn]; split; intros; try tauto; lia.
Qed.
(** so the last characters of every text are counted too often *)
Theorem C96_end_refuted : forall u maxlen s c st, no_clusters u (s ++ [c]) -> exists st' d,
  process_multi u (fun _ => false) maxlen (length (s ++ [c])) (s ++ [c]) st [] = Ok (st', d) /\ counted d [c] = occurrences [c] (s ++ [c]) + 3.
Proof.
  intros u maxlen s c st NC. destruct (C96_counted u maxlen (s ++ [c]) st NC) as (st' & d & E & H). exists st', d. split; [exact E|].
  destruct (H [c]) as [H1 _]; [discriminate|cbn; lia|]. apply H1. now exists s.
Qed.
(** and a text that ends in a given multigraph makes the empty string a multigraph *)
Theorem C96_empty_refuted : forall u preset maxlen s fuel st d st' d', s <> [] ->
  find_multi preset maxlen s = Some maxlen -> length s <= maxlen ->
  process_multi u preset maxlen (S fuel) s st d = Ok (st', d') -> counted d' [] = counted d [] + 4.
Proof.
  intros u preset maxlen s fuel st d st' d' Hs F L E. destruct s as [|c s]; [congruence|]. cbn [process_multi] in E. rewrite F in E.
  rewrite (skipn_all2 (n := maxlen) (c :: s)) in E by exact L. cbn [single] in E.
  assert (d' = count_prefixes [] d) as -> by (destruct fuel; cbn in E; now injection E). rewrite counted_prefixes. unfold one. cbn [firstn].
  destruct (list_eq_dec N.eq_dec [] []); [lia|congruence].
Qed.

(** * The hypotheses are met *)
Definition u_plain : ucd := mkUCD (fun _ => false) (fun _ => 0%N) (fun _ => false) (fun _ => true) (fun _ => false) (fun _ => false)
  (fun _ => false) (fun _ => true) (fun _ => true) (fun _ => false) (fun c => c).
Example C96_met : no_clusters u_plain (lit "abab") /\ occurrences (lit "ab") (lit "abab") = 2 /\
  match process_multi u_plain (fun _ => false) 0 4 (lit "abab") (mkP [] [] []) [] with
  | Ok (_, d) => map (fun w => counted d (lit w)) ["abab"; "ab"; "a"; "b"; "bab"]%string = [1; 4; 2; 5; 2]
  | Raise _ => False
  end /\
  match process_multi u_plain (fun w => streq w (lit "ch")) 2 2 (lit "ch") (mkP [] [] []) [] with
  | Ok (_, d) => counted d [] = 4
  | Raise _ => False
  end.
Proof.
  split; [intros c H; vm_compute in H; repeat (destruct H as [<-|H]; [repeat split; discriminate|]); destruct H|].
  split; [vm_compute; reflexivity|]. split; vm_compute; reflexivity.
Qed.
