(** C93: reading spelling dictionaries. *)
From Coq Require Import String.
From Verif Require Import Py PyFacts M_Hunspell.
Local Open Scope list_scope.

(** ** C93: no dictionary with a line in it can be read *)
Theorem C93_no_dictionary_refuted : forall ws lower upper title ignore l ls,
  exists e, Dic ws lower upper title ignore (l :: ls) = Raise e.
Proof.
  intros ws lower upper title ignore l ls. unfold Dic. cbn [dic_lines].
  assert (exists e, dic_line ws lower upper title None ignore true None l = Raise e) as (e & ->); [|now exists e].
  unfold dic_line. destruct (cut_words ws [] l) as [|w0 [|p ps]]; [now exists IndexError|now exists NameError|].
  destruct (split_on 47%N (w0 ++ lit "//")) as [|d [|c [|x [|y r]]]]; cbn; eexists; reflexivity.
Qed.
(** the usual first line, the number of words, is the first to fail *)
Theorem C93_count_refuted : forall ws lower upper title ignore l ls w, cut_words ws [] l = [w] ->
  Dic ws lower upper title ignore (l :: ls) = Raise NameError.
Proof. intros ws lower upper title ignore l ls w H. unfold Dic. cbn [dic_lines]. unfold dic_line. now rewrite H. Qed.
(** an empty dictionary can be read; with rules of affixes nothing can *)
Theorem C93_empty : forall ws lower upper title ignore, Dic ws lower upper title ignore [] = Ok [].
Proof. reflexivity. Qed.
Theorem C93_affixes_refuted : forall ws lower upper title aff dic, Hunspell ws lower upper title aff dic = Raise TypeError.
Proof. reflexivity. Qed.

(** ** C93: were the dictionary there before reading, a word with classes would still fail, as
    three parts are asked of four *)
Definition slash : N := 47%N.
Theorem C93_classes_refuted : forall ws lower upper title n ignore st l a c ps,
  cut_words ws [] l = (a ++ slash :: c) :: ps -> ~ In slash a -> ~ In slash c ->
  dic_line ws lower upper title n ignore false st l = Raise ValueError.
Proof.
  intros ws lower upper title n ignore st l a c ps H Ha Hc. unfold dic_line. rewrite H.
  assert (split_on 47%N ((a ++ slash :: c) ++ lit "//") = [a; c; []; []]) as E.
  { rewrite <- (split_join slash [a; c; []; []]); [|discriminate|repeat constructor; auto; intros []]. f_equal. cbn [join]. rewrite <- !app_assoc. reflexivity. }
  now rewrite E.
Qed.

(** * The hypotheses are met *)
Example C93_met : cut_words (N.eqb 10) [] (lit "62155" ++ [10%N]) = [lit "62155"] /\
  cut_words (N.eqb 10) [] (lit "walk/DGS" ++ [10%N]) = [lit "walk" ++ slash :: lit "DGS"] /\ ~ In slash (lit "walk") /\ ~ In slash (lit "DGS") /\
  dic_line (N.eqb 10) (fun x => x) (fun x => x) (fun x => x) None [] false (Some []) (lit "walk") = Ok (Some [(lit "walk", Word (lit "walk") None [])]).
Proof.
  split; [reflexivity|]. split; [reflexivity|]. split; [intro H; vm_compute in H; intuition discriminate|].
  split; [intro H; vm_compute in H; intuition discriminate|]. reflexivity.
Qed.
