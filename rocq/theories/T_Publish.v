(** Property C101: what the script that publishes the SLDR runs. *)
From Verif Require Import Py PyFacts M_Publish.
Local Open Scope list_scope.

(** * Specification *)
(** an option as its own word or words *)
Inductive opt : Type := Skip | Dry | NoPrefix | Time | Staging | Iana (v : pystr) | Langtags (v : pystr).
Definition words (o : opt) : list pystr :=
  match o with
  | Skip => [lit "-s"] | Dry => [lit "-d"] | NoPrefix => [lit "-p"] | Time => [lit "-t"] | Staging => [lit "-S"]
  | Iana v => [lit "-I"; v] | Langtags v => [lit "-L"; v]
  end.
Definition is_skip o := match o with Skip => true | _ => false end.
Definition is_dry o := match o with Dry => true | _ => false end.
Definition is_noprefix o := match o with NoPrefix => true | _ => false end.
Definition is_time o := match o with Time => true | _ => false end.
Definition is_staging o := match o with Staging => true | _ => false end.
Definition the_iana o := match o with Iana v => [v] | _ => [] end.
Definition the_langtags o := match o with Langtags v => [v] | _ => [] end.

(** where to *)
Inductive place : Type :=
| Local (path : pystr)
| Remote (user : option pystr) (host : pystr) (root : option pystr).
Definition place_text (p : place) : pystr :=
  match p with
  | Local path => lit ":" ++ path
  | Remote u h r =>
      match u with Some u => u ++ lit "@" | None => [] end ++ h ++ match r with Some r => lit ":" ++ r | None => [] end
  end.
Definition dest (pfx : pystr) (p : place) : pystr :=
  match p with
  | Local path => path
  | Remote u h r =>
      match u with Some u => u ++ lit "@" | None => [] end ++ pfx ++ h ++ lit ":" ++
      match r with Some r => r | None => lit "/var/www/" ++ h ++ lit "/html" end ++ lit "/cms"
  end.
(** no white space *)
Definition solid (s : pystr) : Prop := forall c, In c s -> c <> 32%N /\ c <> 9%N /\ c <> 10%N.
(** a name of a user or a host *)
Definition name (s : pystr) : Prop := s <> [] /\ solid s /\ ~ In 58%N s /\ ~ In 64%N s /\ hd 0%N s <> 45%N.
Definition good (p : place) : Prop :=
  match p with
  | Local path => solid path
  | Remote u h r =>
      name h /\ match u with Some u => name u /\ u <> h | None => True end /\
      match r with Some r => solid r /\ r <> match u with Some u => u ++ lit "@" | None => [] end ++ h | None => True end
  end.

(** the commands *)
Definition tool (timed : bool) : list pystr := if timed then [lit "/usr/bin/time"; lit "-v"] else [].
Definition flattening (timed : bool) : list (list pystr) :=
  [ [lit "rm"; lit "-fr"; lit "flat"];
    tool timed ++ [lit "python3"; lit "bin/ldmlflatten"; lit "-o"; lit "flat"; lit "-i"; lit "sldr"; lit "-a"; lit "-A"; lit "-g"];
    [lit "rm"; lit "-fr"; lit "unflat"];
    tool timed ++ [lit "python3"; lit "bin/ldmlflatten"; lit "-o"; lit "unflat"; lit "-i"; lit "sldr"; lit "-a"; lit "-c"; lit "-g"] ].
Definition rsync (dry : bool) (ws : list pystr) : list pystr :=
  [lit "rsync"; lit "-aP"; lit "--no-p"; lit "--no-g"; lit "--no-t"; lit "--compress"; lit "--del"] ++
  (if dry then [lit "--dry-run"; lit "-i"] else []) ++ ws.
(** the last of some values *)
Definition final (l : list pystr) : pystr := last l [].
Definition upload (dry : bool) (v d : pystr) : list (list pystr) :=
  match v with [] => [] | _ => [rsync dry [v; d]] end.
Definition commands (opts : list opt) (p : place) : list (list pystr) :=
  let d := dest (if existsb is_noprefix opts then [] else lit "sysops.") p in
  let st := if existsb is_staging opts then lit "sldr-staging" else lit "sldr" in
  let dry := existsb is_dry opts in
  (if existsb is_skip opts then [] else flattening (existsb is_time opts)) ++
  [rsync dry [lit "extras"; lit "sldr"; d ++ lit "/local/ldml/" ++ st ++ lit "/"];
   rsync dry [lit "--chmod=Dug=rwx"; lit "flat"; lit "unflat"; d ++ lit "/sites/s/ldml-api/data/" ++ st ++ lit "/"]] ++
  upload dry (final (flat_map the_iana opts)) (d ++ lit "/sites/s/ldml-api/data/IanaRegistry.txt") ++
  upload dry (final (flat_map the_langtags opts)) (d ++ lit "/sites/s/ldml-api/data/langtags.txt").
(** nothing set by the environment *)
Definition clean : conf := Conf [] [] [] [] [] [] [].

(** * Proofs *)
Lemma ifs_solid c : c <> 32%N /\ c <> 9%N /\ c <> 10%N -> ifs c = false.
Proof. intros (A & B & C). unfold ifs. apply N.eqb_neq in A as ->, B as ->, C as ->. reflexivity. Qed.
Lemma fsplit_solid s : solid s -> fsplit s = [s].
Proof.
  induction s as [|c s IH]; intro H; [reflexivity|]. cbn [fsplit]. rewrite ifs_solid by (apply H; now left).
  rewrite IH; [reflexivity|]. intros d I. apply H. now right.
Qed.
Lemma fields_solid s : s <> [] -> solid s -> fields s = [s].
Proof. intros N H. unfold fields. rewrite fsplit_solid by assumption. destruct s; [contradiction|reflexivity]. Qed.
Lemma solid_app a b : solid a -> solid b -> solid (a ++ b).
Proof. intros A B c I. apply in_app_or in I as [I|I]; auto. Qed.
Definition solidb (s : pystr) : bool := forallb (fun c => negb (ifs c)) s.
Lemma solidb_ok s : solidb s = true -> solid s.
Proof.
  unfold solidb. rewrite forallb_forall. intros H c I. apply H in I. unfold ifs in I.
  apply negb_true_iff, orb_false_iff in I as [I C]. apply orb_false_iff in I as [A B].
  apply N.eqb_neq in A, B, C. auto.
Qed.

Lemma before_app c a b : ~ In c a -> before c (a ++ c :: b) = a.
Proof.
  induction a as [|x a IH]; intro H; cbn; [now rewrite N.eqb_refl|].
  replace (N.eqb x c) with false by (symmetry; apply N.eqb_neq; intros ->; apply H; now left).
  rewrite IH; [reflexivity|]. intro I. apply H. now right.
Qed.
Lemma before_none c a : ~ In c a -> before c a = a.
Proof.
  induction a as [|x a IH]; intro H; cbn; [reflexivity|].
  replace (N.eqb x c) with false by (symmetry; apply N.eqb_neq; intros ->; apply H; now left).
  rewrite IH; [reflexivity|]. intro I. apply H. now right.
Qed.
Lemma after_app c a b : ~ In c a -> after c (a ++ c :: b) = b.
Proof.
  intro H. unfold after. assert (after_opt c (a ++ c :: b) = Some b) as ->; [|reflexivity].
  induction a as [|x a IH]; cbn; [now rewrite N.eqb_refl|].
  replace (N.eqb x c) with false by (symmetry; apply N.eqb_neq; intros ->; apply H; now left).
  apply IH. intro I. apply H. now right.
Qed.
Lemma after_none c a : ~ In c a -> after c a = a.
Proof.
  intro H. unfold after. assert (after_opt c a = None) as ->; [|reflexivity].
  induction a as [|x a IH]; cbn; [reflexivity|].
  replace (N.eqb x c) with false by (symmetry; apply N.eqb_neq; intros ->; apply H; now left).
  apply IH. intro I. apply H. now right.
Qed.

Lemma target_remote k u h r : good (Remote u h r) -> target k (place_text (Remote u h r)) = dest (prefix k) (Remote u h r).
Proof.
  intros (Hh & Hu & Hr). cbn [place_text dest]. set (ut := match u with Some u => u ++ lit "@" | None => [] end) in *.
  set (site := ut ++ h).
  assert (~ In 58%N site) as N58.
  { unfold site. rewrite in_app_iff. destruct Hh as (_ & _ & H1 & _). intros [I|I]; [|contradiction]. unfold ut in I. destruct u as [u|]; [|contradiction].
    apply in_app_or in I as [I|[I|[]]]; [|discriminate]. destruct Hu as [(_ & _ & H2 & _) _]. contradiction. }
  assert (site <> []) as Ns.
  { unfold site. intro E. apply app_eq_nil in E as [_ E]. destruct Hh as [? _]. contradiction. }
  assert (before 64 site = match u with Some u => u | None => h end /\ after 64 site = h) as [Eu Eh].
  { unfold site, ut. destruct Hh as (_ & _ & _ & Hh & _). destruct u as [u|].
    - rewrite <- app_assoc. destruct Hu as [(_ & _ & _ & H2 & _) _]. split; [now apply before_app|now apply after_app].
    - split; [now apply before_none|now apply after_none]. }
  assert (before 58 (ut ++ h ++ match r with Some r => lit ":" ++ r | None => [] end) = site /\
          after 58 (ut ++ h ++ match r with Some r => lit ":" ++ r | None => [] end) = match r with Some r => r | None => site end) as [Eb Ea].
  { rewrite app_assoc. fold site. destruct r as [r|].
    - split; [now apply before_app|now apply after_app].
    - rewrite app_nil_r. split; [now apply before_none|now apply after_none]. }
  unfold target. rewrite Eb, Ea, Eu, Eh. destruct site as [|x xs] eqn:Es; [contradiction|].
  assert ((if streq (match u with Some u => u | None => h end) h then [] else match u with Some u => u | None => h end) =
          match u with Some u => u | None => [] end) as ->.
  { destruct u as [u|]; [|now rewrite streq_refl].
    destruct (streq_spec u h) as [E|E]; [|reflexivity]. destruct Hu. contradiction. }
  assert ((if streq (x :: xs) match r with Some r => r | None => x :: xs end then lit "/var/www/" ++ h ++ lit "/html"
           else match r with Some r => r | None => x :: xs end) = match r with Some r => r | None => lit "/var/www/" ++ h ++ lit "/html" end) as ->.
  { destruct r as [r|]; [|now rewrite streq_refl].
    destruct (streq_spec (x :: xs) r) as [E|E]; [|reflexivity]. destruct Hr as [_ Hr]. exfalso. apply Hr. rewrite <- E, <- Es. reflexivity. }
  unfold ut. destruct u as [u|]; [|reflexivity]. destruct Hu as [(Hne & _) _]. destruct u; [contradiction|]. now rewrite <- !app_assoc.
Qed.
Lemma target_place k p : good p -> target k (place_text p) = dest (prefix k) p.
Proof.
  destruct p as [path|u h r]; [|apply target_remote]. reflexivity.
Qed.
Lemma dest_solid pfx p : solid pfx -> good p -> solid (dest pfx p).
Proof.
  intros Hp G. destruct p as [path|u h r]; [exact G|]. destruct G as ((_ & Hh & _) & Hu & Hr). cbn [dest].
  repeat apply solid_app; try assumption; try (apply solidb_ok; reflexivity).
  - destruct u as [u|]; [|apply solidb_ok; reflexivity]. destruct Hu as [(_ & Hu & _) _]. apply solid_app; [assumption|apply solidb_ok; reflexivity].
  - destruct r as [r|]; [apply Hr|]. repeat apply solid_app; try assumption; apply solidb_ok; reflexivity.
Qed.
Lemma place_start p : good p -> hd 0%N (place_text p) <> 45%N.
Proof.
  destruct p as [path|u h r]; [discriminate|]. intros (Hh & Hu & _). cbn [place_text]. destruct u as [u|].
  - destruct Hu as [(Hn & _ & _ & _ & Hd) _]. destruct u; [contradiction|exact Hd].
  - destruct Hh as (Hn & _ & _ & _ & Hd). destruct h; [contradiction|exact Hd].
Qed.

(** the options one after the other *)
Definition apply_opt (k : conf) (o : opt) : conf :=
  match o with
  | Skip => Conf (lit "1") (dryrun k) (prefix k) (timecmd k) (stage k) (iana k) (langtags k)
  | Dry => Conf (skipflat k) (lit "--dry-run -i") (prefix k) (timecmd k) (stage k) (iana k) (langtags k)
  | NoPrefix => Conf (skipflat k) (dryrun k) [] (timecmd k) (stage k) (iana k) (langtags k)
  | Time => Conf (skipflat k) (dryrun k) (prefix k) (lit "/usr/bin/time -v") (stage k) (iana k) (langtags k)
  | Staging => Conf (skipflat k) (dryrun k) (prefix k) (timecmd k) (lit "sldr-staging") (iana k) (langtags k)
  | Iana v => Conf (skipflat k) (dryrun k) (prefix k) (timecmd k) (stage k) v (langtags k)
  | Langtags v => Conf (skipflat k) (dryrun k) (prefix k) (timecmd k) (stage k) (iana k) v
  end.
Lemma getopts_stop f t more k : hd 0%N t <> 45%N -> getopts (S f) (t :: more) k = Some (k, t :: more).
Proof.
  intro H. cbn [getopts]. destruct t as [|c t]; [reflexivity|]. cbn [hd] in H.
  destruct c as [|p]; [reflexivity|]. do 6 (try (destruct p as [p|p|]; try reflexivity)). now contradiction H.
Qed.
Lemma getopts_opts opts : forall f k rest,
  (length (flat_map words opts) <= f)%nat ->
  exists f', (f - length (flat_map words opts) <= f')%nat /\
  getopts f (flat_map words opts ++ rest) k = getopts f' rest (fold_left apply_opt opts k).
Proof.
  induction opts as [|o opts IH]; intros f k rest H; [exists f; cbn; split; [lia|reflexivity]|].
  cbn [flat_map] in H. rewrite app_length in H.
  assert (1 <= length (words o) <= 2)%nat as L by (destruct o; cbn; lia).
  destruct f as [|f]; [lia|].
  destruct (IH f (apply_opt k o) rest) as (f' & Hf & E); [lia|]. exists f'. split; [cbn [flat_map]; rewrite app_length; lia|].
  cbn [fold_left flat_map]. rewrite <- E. destruct o; reflexivity.
Qed.
Lemma fold_opts opts : forall k,
  fold_left apply_opt opts k =
  Conf (if existsb is_skip opts then lit "1" else skipflat k) (if existsb is_dry opts then lit "--dry-run -i" else dryrun k)
       (if existsb is_noprefix opts then [] else prefix k) (if existsb is_time opts then lit "/usr/bin/time -v" else timecmd k)
       (if existsb is_staging opts then lit "sldr-staging" else stage k)
       (last (flat_map the_iana opts) (iana k)) (last (flat_map the_langtags opts) (langtags k)).
Proof.
  assert (forall (l : list pystr) v d, last (v :: l) d = last l v) as HL.
  { induction l as [|x l IH]; intros v d; [reflexivity|]. change (last (v :: x :: l) d) with (last (x :: l) d). now rewrite !IH. }
  induction opts as [|o opts IH]; intro k; [destruct k; reflexivity|].
  cbn [fold_left existsb flat_map]. rewrite IH. destruct o; cbn [apply_opt is_skip is_dry is_noprefix is_time is_staging the_iana the_langtags orb app skipflat dryrun prefix timecmd stage iana langtags]; rewrite ?HL;
    repeat match goal with |- context[existsb ?f opts] => destruct (existsb f opts) end; reflexivity.
Qed.

Lemma exec_run status s ws : exec status s (Run ws) = run_words status s ws.
Proof. reflexivity. Qed.
(** everything is run, whatever the statuses *)
Lemma runs status body : forall s, fst (fold_left (run_words status) body s) = fst s ++ map (flat_map fields) body.
Proof.
  induction body as [|ws body IH]; intro s; [cbn; now rewrite app_nil_r|]. cbn [fold_left map]. rewrite IH. cbn [run_words fst].
  now rewrite <- app_assoc.
Qed.
Definition lines (p : stmt) : list (list pystr) := match p with Run ws => [ws] | If true b => b | If false _ => [] end.
Lemma execs status ps : forall s, fst (fold_left (exec status) ps s) = fst s ++ map (flat_map fields) (flat_map lines ps).
Proof.
  induction ps as [|p ps IH]; intro s; [cbn; now rewrite app_nil_r|]. cbn [fold_left flat_map]. rewrite IH, map_app, app_assoc. f_equal.
  destruct p as [ws|[] body]; cbn [exec lines]; [reflexivity|apply runs|cbn; now rewrite app_nil_r].
Qed.
Lemma script_commands opts p :
  good p -> Forall solid (flat_map the_iana opts) -> Forall solid (flat_map the_langtags opts) ->
  map (flat_map fields) (flat_map lines (script (fold_left apply_opt opts (start clean)) (place_text p))) = commands opts p.
Proof.
  intros G HI HL. rewrite fold_opts. unfold script. rewrite target_place by assumption. cbn [start clean prefix skipflat dryrun timecmd stage iana langtags].
  assert (forall l, Forall solid l -> solid (last l [])) as HF.
  { induction l as [|x l IH]; intro H; [intros c []|]. inversion H; subst. destruct l; [assumption|now apply IH]. }
  apply HF in HI, HL. unfold commands, upload, final.
  set (I := last (flat_map the_iana opts) []) in *. set (L := last (flat_map the_langtags opts) []) in *.
  set (pfx := if existsb is_noprefix opts then [] else lit "sysops.").
  assert (solid (dest pfx p)) as HD by (apply dest_solid; [unfold pfx; destruct (existsb is_noprefix opts); apply solidb_ok; reflexivity|assumption]).
  set (D := dest pfx p) in *. clearbody I L D. clear pfx HF G.
  set (st := if existsb is_staging opts then lit "sldr-staging" else lit "sldr").
  assert (solid st) as HS by (unfold st; destruct (existsb is_staging opts); apply solidb_ok; reflexivity). clearbody st.
  assert (forall a, a <> [] -> solid a -> fields (D ++ a) = [D ++ a]) as FD.
  { intros a Na Ha. apply fields_solid; [|now apply solid_app]. intro E. apply app_eq_nil in E. tauto. }
  assert (fields (D ++ lit "/local/ldml/" ++ st ++ lit "/") = [D ++ lit "/local/ldml/" ++ st ++ lit "/"]) as F1.
  { apply FD; [discriminate|]. repeat apply solid_app; try assumption; apply solidb_ok; reflexivity. }
  assert (fields (D ++ lit "/sites/s/ldml-api/data/" ++ st ++ lit "/") = [D ++ lit "/sites/s/ldml-api/data/" ++ st ++ lit "/"]) as F2.
  { apply FD; [discriminate|]. repeat apply solid_app; try assumption; apply solidb_ok; reflexivity. }
  assert (fields (D ++ lit "/sites/s/ldml-api/data/IanaRegistry.txt") = [D ++ lit "/sites/s/ldml-api/data/IanaRegistry.txt"]) as F3.
  { apply FD; [discriminate|apply solidb_ok; reflexivity]. }
  assert (fields (D ++ lit "/sites/s/ldml-api/data/langtags.txt") = [D ++ lit "/sites/s/ldml-api/data/langtags.txt"]) as F4.
  { apply FD; [discriminate|apply solidb_ok; reflexivity]. }
  assert (I <> [] -> fields I = [I]) as FI by (intro; now apply fields_solid).
  assert (L <> [] -> fields L = [L]) as FL by (intro; now apply fields_solid).
  cbn [flat_map lines app]. rewrite !map_app. cbn [map flat_map]. rewrite F1, F2.
  f_equal; [|f_equal; [|f_equal; [|rewrite map_app; f_equal]]].
  - destruct (existsb is_skip opts), (existsb is_time opts); reflexivity.
  - destruct (existsb is_dry opts); reflexivity.
  - destruct (existsb is_dry opts); reflexivity.
  - destruct I as [|i I]; [reflexivity|]. cbn [nonempty lines map flat_map]. rewrite FI, F3 by discriminate. destruct (existsb is_dry opts); reflexivity.
  - destruct L as [|i L]; [reflexivity|]. cbn [nonempty lines map flat_map app]. rewrite FL, F4 by discriminate. destruct (existsb is_dry opts); reflexivity.
Qed.

(** * Theorems *)
Lemma publish_unfold env opts p more status :
  good p ->
  publish env (flat_map words opts ++ place_text p :: more) status =
  fold_left (exec status) (script (fold_left apply_opt opts (start env)) (place_text p)) ([], 0%N).
Proof.
  intro G. unfold publish.
  destruct (getopts_opts opts (S (length (flat_map words opts ++ place_text p :: more))) (start env) (place_text p :: more)) as (f' & Hf & ->).
  { rewrite app_length. lia. }
  rewrite app_length in Hf. cbn [length] in Hf. destruct f' as [|f']; [lia|]. now rewrite getopts_stop by now apply place_start.
Qed.
(** The commands run, for all options in any order and however the commands end. *)
Theorem C101_commands : forall opts p more status,
  good p -> Forall solid (flat_map the_iana opts) -> Forall solid (flat_map the_langtags opts) ->
  fst (publish clean (flat_map words opts ++ place_text p :: more) status) = commands opts p.
Proof.
  intros opts p more status G HI HL. rewrite publish_unfold by assumption. rewrite execs. cbn [fst app]. now apply script_commands.
Qed.

(** The help is printed, and nothing else is done, when the target is missing, with -h, with an unknown option or an
    option without its value. *)
Theorem C101_help : forall env opts status rest,
  rest = [] \/ (exists c cl more, rest = (45%N :: c :: cl) :: more /\ ~ In c (lit "sdptSIL-")) \/
  rest = [lit "-I"] \/ rest = [lit "-L"] ->
  publish env (flat_map words opts ++ rest) status = ([], 1%N).
Proof.
  intros env opts status rest H. unfold publish.
  destruct (getopts_opts opts (S (length (flat_map words opts ++ rest))) (start env) rest) as (f' & Hf & ->); [rewrite app_length; lia|].
  rewrite app_length in Hf. destruct f' as [|f']; [reflexivity|]. cbn [getopts].
  destruct H as [->|[(c & cl & more & -> & N)|[->| ->]]]; try reflexivity.
  cbn in N. assert (streq (c :: cl) (lit "-") = false) as ->.
  { apply streq_false. intros [= -> _]. tauto. }
  cbn [cluster]. unfold flag.
  repeat match goal with |- context[N.eqb c ?n] => replace (N.eqb c n) with false by (symmetry; apply N.eqb_neq; intros ->; tauto) end.
  reflexivity.
Qed.

(** One letter after the other behind one hyphen. *)
Definition letter (o : opt) : option N :=
  match o with Skip => Some 115%N | Dry => Some 100%N | NoPrefix => Some 112%N | Time => Some 116%N | Staging => Some 83%N | _ => None end.
Theorem C101_clusters : forall env opts cs rest status,
  map Some cs = map letter opts -> opts <> [] ->
  publish env ((45%N :: cs) :: rest) status = publish env (flat_map words opts ++ rest) status.
Proof.
  intros env opts cs rest status E N. unfold publish.
  assert (forall k, cluster cs rest k = Some (fold_left apply_opt opts k, rest)) as HC.
  { clear N. revert opts E. induction cs as [|c cs IH]; intros [|o opts] E k; try discriminate; [reflexivity|].
    cbn [map] in E. injection E as E1 E2. cbn [fold_left cluster].
    destruct o; cbn [letter] in E1; try discriminate; injection E1 as ->; apply (IH opts E2). }
  destruct cs as [|c cs]; [destruct opts; [contradiction|discriminate]|].
  assert (streq (c :: cs) (lit "-") = false) as NS.
  { apply streq_false. intros [= -> ->]. destruct opts as [|[] ?]; discriminate. }
  destruct (getopts_opts opts (S (length (flat_map words opts ++ rest))) (start env) rest) as (f' & Hf & ->); [rewrite app_length; lia|].
  rewrite app_length in Hf.
  cbn [length]. remember (S (length rest)) as f eqn:Ef. cbn [getopts]. rewrite NS, HC.
  assert (forall n m a k, (length a < n)%nat -> (length a < m)%nat -> getopts n a k = getopts m a k) as FU.
  { clear. assert (forall cl a k k' a', cluster cl a k = Some (k', a') -> (length a' <= length a)%nat) as CL.
    { induction cl as [|c cl IH]; intros a k k' a' H; cbn [cluster] in H; [now injection H as _ <-|].
      destruct (_ || _)%bool.
      - destruct cl as [|c' cl]; [destruct a as [|v a]; [discriminate|]|]; injection H as _ <-; cbn; lia.
      - destruct (flag c k); [eapply IH; exact H|discriminate]. }
    induction n as [|n IH]; intros [|m] a k H1 H2; try lia. cbn [getopts]. destruct a as [|w a]; [reflexivity|]. cbn [length] in *.
    destruct w as [|c w]; [reflexivity|]. destruct (N.eq_dec c 45) as [->|Nc].
    - destruct w as [|d w]; [reflexivity|]. destruct (streq _ _); [reflexivity|]. destruct (cluster (d :: w) a k) as [[k' a']|] eqn:E; [|reflexivity].
      apply CL in E. apply IH; lia.
    - destruct c as [|q]; [reflexivity|]. do 6 (try (destruct q as [q|q|]; try reflexivity)). now contradiction Nc. }
  rewrite (FU f f' rest); [reflexivity|subst f; lia|lia].
Qed.

(** A trial run uploads nothing: every rsync has --dry-run. *)
Theorem C101_dry_run : forall opts p more status ws,
  good p -> Forall solid (flat_map the_iana opts) -> Forall solid (flat_map the_langtags opts) ->
  In Dry opts -> In ws (fst (publish clean (flat_map words opts ++ place_text p :: more) status)) ->
  hd [] ws = lit "rsync" -> In (lit "--dry-run") ws.
Proof.
  intros opts p more status ws G HI HL HD HW HR. rewrite C101_commands in HW by assumption.
  assert (existsb is_dry opts = true) as ED by (apply existsb_exists; now exists Dry).
  unfold commands in HW. rewrite ED in HW.
  assert (forall v, In (lit "--dry-run") (rsync true v)) as R by (intro v; cbn; tauto).
  apply in_app_or in HW as [HW|HW].
  - destruct (existsb is_skip opts); [contradiction|]. unfold flattening, tool in HW.
    destruct (existsb is_time opts); cbn [app In] in HW; repeat destruct HW as [<-|HW]; try discriminate HR; contradiction.
  - apply in_app_or in HW as [[<-|[<-|[]]]|HW]; [apply R|apply R|].
    apply in_app_or in HW as [HW|HW]; unfold upload in HW; match type of HW with In _ (match ?v with _ => _ end) => destruct v end;
      try contradiction; destruct HW as [<-|[]]; apply R.
Qed.
(** But without -s it removes and rebuilds the flattened files all the same. *)
Theorem C101_dry_run_refuted : forall opts p more status,
  good p -> Forall solid (flat_map the_iana opts) -> Forall solid (flat_map the_langtags opts) -> ~ In Skip opts ->
  exists l, fst (publish clean (flat_map words opts ++ place_text p :: more) status) = flattening (existsb is_time opts) ++ l.
Proof.
  intros opts p more status G HI HL HS. rewrite C101_commands by assumption. unfold commands.
  replace (existsb is_skip opts) with false; [eexists; reflexivity|]. symmetry. apply not_true_is_false. intro E.
  apply existsb_exists in E as (o & I & E). destruct o; try discriminate. contradiction.
Qed.
(** With -s nothing is run but rsync. *)
Theorem C101_skip : forall opts p more status ws,
  good p -> Forall solid (flat_map the_iana opts) -> Forall solid (flat_map the_langtags opts) -> In Skip opts ->
  In ws (fst (publish clean (flat_map words opts ++ place_text p :: more) status)) -> hd [] ws = lit "rsync".
Proof.
  intros opts p more status ws G HI HL HS HW. rewrite C101_commands in HW by assumption. unfold commands in HW.
  replace (existsb is_skip opts) with true in HW by (symmetry; apply existsb_exists; now exists Skip).
  cbn [app] in HW. destruct HW as [<-|[<-|HW]]; try reflexivity.
  apply in_app_or in HW as [HW|HW]; unfold upload in HW; match type of HW with In _ (match ?v with _ => _ end) => destruct v end;
      try contradiction; destruct HW as [<-|[]]; reflexivity.
Qed.

(** Failures: the flattened files are uploaded even if making them failed (the list of commands in C101_commands
    does not depend on the statuses), and the script succeeds whatever failed if there is no -L. *)
Theorem C101_failures_refuted : forall opts p more status,
  good p -> Forall solid (flat_map the_iana opts) -> Forall solid (flat_map the_langtags opts) ->
  snd (publish clean (flat_map words opts ++ place_text p :: more) status) =
  match final (flat_map the_langtags opts) with
  | [] => 0%N
  | _ => status (length (commands opts p) - 1)%nat
  end.
Proof.
  intros opts p more status G HI HL. pose proof (C101_commands opts p more status G HI HL) as C.
  rewrite publish_unfold in * by assumption. rewrite fold_opts in *. unfold script in *. cbn [start clean langtags] in *. unfold final.
  match goal with |- snd (fold_left _ [?a; ?b; ?c; ?d; ?e] ?s) = _ =>
    change (fold_left (exec status) [a; b; c; d; e] s) with (exec status (fold_left (exec status) [a; b; c; d] s) e) in *;
    set (S4 := fold_left (exec status) [a; b; c; d] s) in * end.
  cbn [M_Publish.langtags] in *.
  destruct (last (flat_map the_langtags opts) []) as [|x xs]; [reflexivity|]. cbn [nonempty exec fold_left] in *.
  rewrite <- C. cbn [run_words fst snd]. rewrite app_length. cbn [length]. f_equal. lia.
Qed.

(** A user who is called like the host is left out, and a directory that is called like the place is not used. *)
Theorem C101_target_refuted : forall k h, name h ->
  target k (h ++ lit "@" ++ h) = prefix k ++ h ++ lit ":/var/www/" ++ h ++ lit "/html/cms" /\
  target k (h ++ lit ":" ++ h) = prefix k ++ h ++ lit ":/var/www/" ++ h ++ lit "/html/cms".
Proof.
  intros k h (N & _ & H58 & H64 & _).
  assert (~ In 58%N (h ++ lit "@" ++ h)) as N58 by (rewrite !in_app_iff; cbn; intuition discriminate).
  assert (h ++ lit "@" ++ h <> []) as NN by (destruct h; [contradiction|discriminate]).
  split; unfold target.
  - rewrite (before_none 58 _ N58), (after_none 58 _ N58). change (lit "@" ++ h) with (64%N :: h) in *.
    rewrite before_app, after_app by assumption. rewrite !streq_refl. destruct (h ++ 64%N :: h) eqn:E; [contradiction|].
    cbn [app]. rewrite <- ?app_assoc. reflexivity.
  - change (lit ":" ++ h) with (58%N :: h). rewrite before_app, after_app by assumption. rewrite (before_none 64 h H64), (after_none 64 h H64).
    rewrite !streq_refl. destruct h eqn:E; [contradiction|]. rewrite <- E. cbn [app]. rewrite <- ?app_assoc. reflexivity.
Qed.
(** An empty target is the root of the local files. *)
Theorem C101_empty_refuted : forall opts more status,
  Forall solid (flat_map the_iana opts) -> Forall solid (flat_map the_langtags opts) ->
  fst (publish clean (flat_map words opts ++ [] :: more) status) = commands opts (Local []).
Proof.
  intros opts more status HI HL. rewrite <- (C101_commands opts (Local []) more status) by (assumption || (intros ? [])).
  unfold publish.
  destruct (getopts_opts opts (S (length (flat_map words opts ++ [] :: more))) (start clean) ([] :: more)) as (f' & Hf & ->); [rewrite app_length; lia|].
  destruct (getopts_opts opts (S (length (flat_map words opts ++ place_text (Local []) :: more))) (start clean) (place_text (Local []) :: more)) as (f2 & Hf2 & ->); [rewrite app_length; lia|].
  rewrite app_length in Hf, Hf2. cbn [length] in Hf, Hf2. destruct f' as [|f'], f2 as [|f2]; try lia. rewrite !getopts_stop by discriminate. reflexivity.
Qed.
(** What the environment has for SKIPFLAT does as -s does. *)
Theorem C101_environment_refuted : forall v opts p more status,
  good p -> Forall solid (flat_map the_iana opts) -> Forall solid (flat_map the_langtags opts) -> v <> [] ->
  fst (publish (Conf v [] [] [] [] [] []) (flat_map words opts ++ place_text p :: more) status) = commands (Skip :: opts) p.
Proof.
  intros v opts p more status G HI HL NV. rewrite publish_unfold by assumption. rewrite execs. cbn [fst app].
  rewrite <- (script_commands (Skip :: opts) p) by assumption. f_equal. f_equal. rewrite !fold_opts.
  cbn [existsb is_skip is_dry is_noprefix is_time is_staging flat_map the_iana the_langtags orb app].
  unfold script, target. cbn [skipflat dryrun prefix timecmd stage iana langtags start clean].
  destruct v as [|x v]; [contradiction|]. destruct (existsb is_skip opts); reflexivity.
Qed.

(** * Cases *)
Definition ex_place : place := Remote (Some (lit "me")) (lit "example.org") None.
Lemma name_ok s : negb (match s with [] => true | c :: _ => N.eqb c 45 end) && solidb s && negb (inchars 58 s) && negb (inchars 64 s) = true -> name s.
Proof.
  intro H. apply andb_true_iff in H as [H D]. apply andb_true_iff in H as [H C]. apply andb_true_iff in H as [A B].
  apply negb_true_iff, inchars_false in C, D. apply solidb_ok in B. destruct s as [|c s]; [discriminate|].
  apply negb_true_iff, N.eqb_neq in A. repeat split; try assumption; try discriminate; apply B; assumption.
Qed.
Example C101_ex_good : good ex_place /\ good (Local (lit "/srv/www")) /\ good (Remote None (lit "example.org") (Some (lit "/srv"))).
Proof.
  split; [|split].
  - split; [apply name_ok; reflexivity|]. split; [|exact I]. split; [apply name_ok; reflexivity|discriminate].
  - apply solidb_ok. reflexivity.
  - split; [apply name_ok; reflexivity|]. split; [exact I|]. split; [apply solidb_ok; reflexivity|discriminate].
Qed.
Example C101_commands_ex :
  publish clean [lit "-I"; lit "iana.txt"; lit "-d"; lit "-S"; lit "-s"; lit "me@example.org"] (fun _ => 7%N) =
  ([rsync true [lit "extras"; lit "sldr"; lit "me@sysops.example.org:/var/www/example.org/html/cms/local/ldml/sldr-staging/"];
    rsync true [lit "--chmod=Dug=rwx"; lit "flat"; lit "unflat"; lit "me@sysops.example.org:/var/www/example.org/html/cms/sites/s/ldml-api/data/sldr-staging/"];
    rsync true [lit "iana.txt"; lit "me@sysops.example.org:/var/www/example.org/html/cms/sites/s/ldml-api/data/IanaRegistry.txt"]], 0%N).
Proof. vm_compute. reflexivity. Qed.
Example C101_help_ex : publish clean [lit "-s"; lit "-x"; lit "me@example.org"] (fun _ => 7%N) = ([], 1%N).
Proof. vm_compute. reflexivity. Qed.
Example C101_clusters_ex : map Some (lit "ds") = map letter [Dry; Skip].
Proof. reflexivity. Qed.
Example C101_target_ex : name (lit "ldml").
Proof. apply name_ok. reflexivity. Qed.
