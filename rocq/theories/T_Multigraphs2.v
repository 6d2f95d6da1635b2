(** C96: counting the possible multigraphs of any text, with clusters and given exemplars. *)
From Coq Require Import String.
From Verif Require Import Py PyFacts M_UnicodeSets M_Exemplars M_Multigraphs T_Exemplars T_Multigraphs.
Local Open Scope list_scope.
Local Open Scope nat_scope.

(** * Specification *)
(** the text cut into pieces as in C39: what is left of it at the start of each piece that is no given exemplar *)
Fixpoint starts (ps : list piece) : list pystr :=
  match ps with
  | [] => []
  | p :: ps' => match pk p with Given => [] | _ => [concat (map source ps)] end ++ starts ps'
  end.
Definition begins_with (w s : pystr) : bool := if list_eq_dec N.eq_dec (firstn (length w) s) w then true else false.
Definition ends_given (ps : list piece) : Prop := exists ps' p, ps = ps' ++ [p] /\ pk p = Given.

(** * Proof *)
Definition hits (w s : pystr) : nat := one (firstn 4 s) w + one (firstn 3 s) w + one (firstn 2 s) w + one (firstn 1 s) w.
Definition total (w : pystr) (l : list pystr) : nat := fold_right (fun s n => hits w s + n) 0 l.
Fixpoint last_given (ps : list piece) : bool :=
  match ps with [] => false | [p] => match pk p with Given => true | _ => false end | _ :: ps' => last_given ps' end.
Lemma last_given_spec ps : last_given ps = true <-> ends_given ps.
Proof.
  unfold ends_given. induction ps as [|p ps IH].
  - split; [discriminate|]. intros ([|x a] & q & E & _); discriminate.
  - destruct ps as [|p2 ps].
    + cbn [last_given]. split.
      * intro H. exists [], p. split; [reflexivity|]. destruct (pk p); congruence.
      * intros ([|x a] & q & E & K); cbn in E; [injection E as <-; now rewrite K|]. destruct a; discriminate.
    + change (last_given (p :: p2 :: ps)) with (last_given (p2 :: ps)). rewrite IH. split.
      * intros (a & q & E & K). exists (p :: a), q. split; [cbn; now rewrite E|exact K].
      * intros ([|x a] & q & E & K); cbn in E; [discriminate|]. injection E as _ E. eauto.
Qed.
Lemma last_given_cons p ps : pk p <> Given -> last_given (p :: ps) = last_given ps.
Proof. intro H. destruct ps; [|reflexivity]. cbn. destruct (pk p); congruence. Qed.
Lemma cut1_head u preset maxlen s p ps : cut1 u preset maxlen s (p :: ps) -> pk p <> Given.
Proof. intro H. inversion H; subst; discriminate. Qed.

Lemma multi_spec u preset maxlen fuel : forall s st d, length s <= fuel ->
  exists st' d' ps, process_multi u preset maxlen fuel s st d = Ok (st', d') /\ cut u preset maxlen s ps /\
    forall w, counted d' w = counted d w + total w (starts ps) + (if last_given ps then hits w [] else 0).
Proof.
  induction fuel as [|fuel IH]; intros s st d Hf.
  - destruct s; [|cbn in Hf; lia]. exists st, d, []. split; [reflexivity|]. split; [constructor|]. intro w. cbn. lia.
  - destruct s as [|c0 s0] eqn:Es. { exists st, d, []. split; [reflexivity|]. split; [constructor|]. intro w. cbn. lia. }
    rewrite <- Es in *. assert (Hne : s <> []) by (rewrite Es; discriminate).
    replace (process_multi u preset maxlen (S fuel) s st d) with
      (let '(s1, st1) :=
            match find_multi preset maxlen s with
            | Some k => (skipn k s, mkP (cadd (p_clusters st) (firstn k s, []) 1) (p_upper st) (p_lower st))
            | None => (s, st)
            end in
          let '(s2, st2) := single u s1 st1 in
          process_multi u preset maxlen fuel s2 st2 (count_prefixes s1 d)) by (rewrite Es; reflexivity).
    clear Es c0 s0.
    assert (HX : exists s1 st1 ps1,
      match find_multi preset maxlen s with
            | Some k => (skipn k s, mkP (cadd (p_clusters st) (firstn k s, []) 1) (p_upper st) (p_lower st))
            | None => (s, st)
            end = (s1, st1) /\ (forall ps, cut1 u preset maxlen s1 ps -> cut u preset maxlen s (ps1 ++ ps))
      /\ length s1 <= length s
      /\ ((ps1 = [] /\ s1 = s) \/ exists p, ps1 = [p] /\ pk p = Given)).
    { pose proof (find_multi_spec preset maxlen s) as F. destruct (find_multi preset maxlen s) as [k|].
      - eexists _, _, [Piece Given (firstn k s) (Some (firstn k s, []))]. split; [reflexivity|].
        split; [intros ps Hps; now apply cut_given|]. rewrite skipn_length. split; [lia|]. right. eexists. split; reflexivity.
      - eexists _, _, []. split; [reflexivity|]. split; [intros ps Hps; now apply cut_plain|]. split; [lia|]. left. auto. }
    destruct HX as (s1 & st1 & ps1 & -> & C1 & L1 & K1).
    destruct (single u s1 st1) as [s2 st2] eqn:E2.
    pose proof (single_spec _ preset maxlen _ _ _ _ E2) as [(-> & -> & ->)|(L2 & p & _ & C2)].
    + exists st1, (count_prefixes [] d), ps1. split; [now destruct fuel|]. split; [rewrite <- (app_nil_r ps1); apply C1; constructor|].
      intro w. rewrite counted_prefixes. destruct K1 as [[_ E]|(p & -> & K)]; [congruence|].
      cbn [starts last_given]. rewrite K. cbn [app total fold_right]. unfold hits. lia.
    + destruct (IH s2 st2 (count_prefixes s1 d)) as (st' & d' & ps & E3 & C3 & G); [lia|].
      exists st', d', (ps1 ++ p :: ps). split; [exact E3|]. split; [apply C1, C2, C3|].
      pose proof (C2 _ C3) as C4. pose proof (cut1_head _ _ _ _ _ _ C4) as NG.
      destruct (proj2 (cut_concat_both u preset maxlen) _ _ C4) as [CC _].
      intro w. rewrite G, counted_prefixes. fold (hits w s1).
      assert (total w (starts (ps1 ++ p :: ps)) = hits w s1 + total w (starts ps)) as ->.
      { assert (starts (p :: ps) = s1 :: starts ps) as E.
        { cbn [starts]. rewrite CC. destruct (pk p); congruence || reflexivity. }
        destruct K1 as [[-> _]|(q & -> & K)]; cbn [app].
        - rewrite E. reflexivity.
        - change (starts (q :: p :: ps)) with (match pk q with Given => [] | _ => [concat (map source (q :: p :: ps))] end ++ starts (p :: ps)).
          rewrite K, E. reflexivity. }
      assert (last_given (ps1 ++ p :: ps) = last_given ps) as ->.
      { destruct K1 as [[-> _]|(q & -> & K)]; cbn [app]; [now apply last_given_cons|].
        change (last_given (q :: p :: ps)) with (last_given (p :: ps)). now apply last_given_cons. }
      unfold hits. lia.
Qed.

Lemma hits_word w s : w <> [] -> length w <= 4 -> hits w s = (if begins_with w s then 1 else 0) + (if list_eq_dec N.eq_dec s w then 4 - length w else 0).
Proof.
  intros Hw L. unfold hits. rewrite (slices w s Hw L). unfold one, begins_with.
  destruct (list_eq_dec N.eq_dec (firstn (length w) s) w); reflexivity.
Qed.
Lemma hits_nil s : hits [] s = if list_eq_dec N.eq_dec s [] then 4 else 0.
Proof. unfold hits, one. destruct s as [|a s]; cbn; reflexivity. Qed.
Lemma hits_long w s : 4 < length w -> hits w s = 0.
Proof.
  intro L. unfold hits, one.
  assert (forall k, k <= 4 -> firstn k s <> w) as H.
  { intros k K E. apply (f_equal (@length N)) in E. rewrite firstn_length in E. lia. }
  destruct (list_eq_dec N.eq_dec (firstn 4 s) w); [exfalso; now apply (H 4)|].
  destruct (list_eq_dec N.eq_dec (firstn 3 s) w); [exfalso; apply (H 3); [lia|auto]|].
  destruct (list_eq_dec N.eq_dec (firstn 2 s) w); [exfalso; apply (H 2); [lia|auto]|].
  destruct (list_eq_dec N.eq_dec (firstn 1 s) w); [exfalso; apply (H 1); [lia|auto]|]. reflexivity.
Qed.
Lemma starts_le ps : Forall (fun p => source p <> []) ps -> forall t, In t (starts ps) -> t <> [] /\ length t <= length (concat (map source ps)).
Proof.
  induction 1 as [|p ps H F IH]; intros t I; [destruct I|]. cbn [starts] in I. apply in_app_iff in I as [I|I].
  - destruct (pk p); cbn [In] in I; destruct I as [<-|[]] || destruct I; (split; [|lia]); cbn [map concat]; destruct (source p); cbn; congruence.
  - destruct (IH t I) as [I1 I2]. split; [exact I1|]. cbn [map concat]. rewrite app_length. lia.
Qed.
Lemma total_word w ps : Forall (fun p => source p <> []) ps -> w <> [] -> length w <= 4 ->
  (In w (starts ps) -> total w (starts ps) = length (filter (begins_with w) (starts ps)) + (4 - length w)) /\
  (~ In w (starts ps) -> total w (starts ps) = length (filter (begins_with w) (starts ps))).
Proof.
  intros F Hw L.
  assert (forall l, ~ In w l -> total w l = length (filter (begins_with w) l)) as N0.
  { induction l as [|t l IH]; intro N; [reflexivity|]. cbn [total fold_right filter]. fold (total w l). rewrite (IH (fun I => N (or_intror I))), (hits_word w t Hw L).
    destruct (list_eq_dec N.eq_dec t w) as [->|_]; [exfalso; apply N; now left|]. destruct (begins_with w t); cbn; lia. }
  split; [|apply N0]. induction F as [|p ps H F IH]; intro I; [destruct I|]. cbn [starts] in *.
  destruct (pk p); cbn [app] in *.
  1: exact (IH I).
  all: cbn [total fold_right filter]; fold (total w (starts ps)); rewrite (hits_word w _ Hw L);
       destruct (list_eq_dec N.eq_dec (concat (map source (p :: ps))) w) as [E|NE].
  all: try (destruct I as [I|I]; [congruence|]; rewrite (IH I); destruct (begins_with w _); cbn [length]; lia).
  all: rewrite N0; [destruct (begins_with w _); cbn [length]; lia|].
  all: intro I2; apply (starts_le ps F) in I2 as [_ Le]; rewrite <- E in Le; cbn [map concat] in Le; rewrite app_length in Le;
       destruct (source p); [congruence|cbn in Le; lia].
Qed.

(** ** C96 for any text: the text is cut into pieces as without the option. A string of one to four characters is counted
    once for each piece, other than a given exemplar, at whose start it stands, and 4 minus its length times more if the text
    from such a start to the end is the string. The empty string is counted four times if the text ends in a given
    exemplar, else not at all, and longer strings never. *)
Theorem C96_any : forall u preset maxlen s st fuel, length s <= fuel ->
  exists st' d ps, process_multi u preset maxlen fuel s st [] = Ok (st', d) /\
    process_loop u preset maxlen fuel s st = Ok st' /\
    cut u preset maxlen s ps /\
    (forall w, w <> [] -> length w <= 4 ->
       (In w (starts ps) -> counted d w = length (filter (begins_with w) (starts ps)) + (4 - length w)) /\
       (~ In w (starts ps) -> counted d w = length (filter (begins_with w) (starts ps)))) /\
    (ends_given ps -> counted d [] = 4) /\ (~ ends_given ps -> counted d [] = 0) /\
    (forall w, 4 < length w -> counted d w = 0).
Proof.
  intros u preset maxlen s st fuel Hf. destruct (multi_spec u preset maxlen fuel s st [] Hf) as (st' & d & ps & E & C & G).
  exists st', d, ps. split; [exact E|]. split; [rewrite (C96_same_clusters u preset maxlen fuel s st []), E; reflexivity|]. split; [exact C|].
  destruct (proj1 (cut_concat_both u preset maxlen) _ _ C) as [_ F].
  assert (forall w, counted [] w = 0) as Z by reflexivity.
  assert (total [] (starts ps) = 0) as T0.
  { pose proof (starts_le ps F) as S. clear -S. induction (starts ps) as [|t l IH]; [reflexivity|]. cbn [total fold_right]. fold (total [] l).
    rewrite IH by (intros; apply S; now right). rewrite hits_nil. destruct (S t (or_introl eq_refl)) as [NT _]. destruct (list_eq_dec N.eq_dec t []); [congruence|reflexivity]. }
  split; [|split; [|split]].
  - intros w Hw L. rewrite (G w), (Z w). destruct (total_word w ps F Hw L) as [T1 T2].
    assert ((if last_given ps then hits w [] else 0) = 0) as ->.
    { destruct (last_given ps); [|reflexivity]. rewrite hits_word by assumption. unfold begins_with. rewrite firstn_nil.
      destruct (list_eq_dec N.eq_dec [] w); [congruence|reflexivity]. }
    split; intro I; [rewrite (T1 I)|rewrite (T2 I)]; lia.
  - intro EG. apply last_given_spec in EG. rewrite (G []), (Z []), T0, EG. reflexivity.
  - intro EG. rewrite (G []), (Z []), T0. destruct (last_given ps) eqn:X; [|reflexivity]. apply last_given_spec in X. contradiction.
  - intros w L. rewrite (G w), (Z w). rewrite (hits_long w [] L).
    assert (total w (starts ps) = 0) as ->; [|destruct (last_given ps); reflexivity].
    clear -L. induction (starts ps) as [|t l IH]; [reflexivity|]. cbn [total fold_right]. fold (total w l). now rewrite IH, hits_long.
Qed.
(** a text with a mark and a given exemplar *)
Definition u_marks : ucd := mkUCD (fun c => N.eqb c 126) (fun _ => 0%N) (fun _ => false) (fun _ => true) (fun _ => false) (fun _ => false)
  (fun _ => false) (fun _ => true) (fun _ => true) (fun _ => false) (fun c => c).
Example C96_any_met :
  match process_multi u_marks (fun w => streq w (lit "ch")) 2 7 (lit "a~chbach") (mkP [] [] []) [] with
  | Ok (_, d) => map (fun w => counted d (lit w)) ["a~ch"; "a"; "~"; "ch"; "b"; "ach"; ""]%string = [1; 2; 0; 0; 1; 2; 4]
  | Raise _ => False
  end.
Proof. vm_compute. reflexivity. Qed.
