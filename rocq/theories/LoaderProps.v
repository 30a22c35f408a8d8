(** C52: the files known are the source files of the configured directories, with the contents they have on disk. *)
From Coq Require Import List Bool Arith String Ascii Lia.
From Verif Require Import LoaderModel LoaderSpec LoaderProofs.
Import ListNotations.
Local Open Scope string_scope.
Local Open Scope nat_scope.
Local Open Scope list_scope.

(** The test used on reports of the watcher is the documented rule. *)
Theorem C52_contains : forall d p,
  (contains_file (Dirs d) p = true <-> wanted_extension (extensions d) p /\ included d p) /\
  (contains_dir (Dirs d) p = true <-> included d p).
Proof. intros d p. split; [apply dirs_contain_file_spec|apply includes_path_spec]. Qed.
Print Assumptions C52_contains.

Lemma exists_longest p incs i :
  In i incs -> under i p ->
  exists m, In m incs /\ under m p /\ forall j, In j incs -> under j p -> List.length j <= List.length m.
Proof.
  intros Hi Hu. pose proof (longest_spec p incs None) as H. simpl in H.
  assert (H0 : forall a, @None path = Some a -> under a p) by discriminate. specialize (H H0).
  destruct (fold_left _ incs None) as [m|].
  - destruct H as (H1 & [H2|H2] & H3 & _); [|discriminate]. exists m. auto.
  - destruct H as [_ H]. now elim (H i Hi).
Qed.

(** The walk finds the same files, if no exclude path is a source file or an include path. *)
Theorem C52_walk : forall disk d p c,
  sound_disk disk ->
  (forall e, In e (exclude d) -> wanted_extension (extensions d) e -> ~ file_on disk e) ->
  (forall e, In e (exclude d) -> ~ In e (include d)) ->
  (In (p, c) (fst (load_entry disk (Dirs d) false)) <->
   exists b, lookup disk p = Some (File b) /\ c = Some b /\ wanted_extension (extensions d) p /\ included d p).
Proof.
  intros disk d p c Hs H1 H2. rewrite load_entry_in. split.
  - intros (-> & He & root & Hr & Hw). apply has_extension_spec in He. apply walk_root_spec in Hw; [|exact Hs].
    destruct Hw as (Hu & (m & Hl & Hm) & Hq). destruct m as [b|k]; [|discriminate].
    exists b. split; [exact Hl|]. split; [unfold read; now rewrite Hl|]. split; [exact He|].
    exists root. split; [exact Hr|]. split; [exact Hu|]. intros e Hin Hue.
    destruct (le_lt_dec (List.length root) (List.length e)) as [Hle|Hlt]; [|exact Hlt]. exfalso.
    pose proof (under_linear root e p Hu Hue Hle) as Hre.
    destruct (list_eq_dec string_dec e p) as [->|Hne].
    + apply (H1 p Hin He). now exists b.
    + destruct (above_dir disk e p (File b) Hl Hue Hne) as [k Hk].
      destruct (Hq e k Hre Hue Hk) as [->|[Hx _]]; [now apply (H2 root Hin)|contradiction].
  - intros (b & Hl & -> & He & i & Hi & Hu & Hall).
    split; [unfold read; now rewrite Hl|]. split; [now apply has_extension_spec|].
    destruct (exists_longest p (include d) i Hi Hu) as (m & Hm & Hum & Hlong).
    exists m. split; [exact Hm|]. apply walk_root_spec; [exact Hs|]. split; [exact Hum|].
    split; [now exists (File b)|]. intros q k Hmq Hqp _.
    destruct (list_eq_dec string_dec q m) as [->|Hne]; [now left|]. right. split; intros Hq.
    + specialize (Hall q Hq Hqp). specialize (Hlong i Hi Hu). apply under_length in Hmq. lia.
    + specialize (Hlong q Hq Hqp). elim Hne. symmetry. now apply under_same.
Qed.
Print Assumptions C52_walk.

(** The walk finds each file once. *)
Theorem C52_once : forall disk d,
  sound_disk disk -> NoDup (include d) ->
  (forall i j, In i (include d) -> In j (include d) -> under j i -> i <> j -> ~ file_on disk i) ->
  NoDup (map fst (fst (load_entry disk (Dirs d) false))).
Proof.
  intros disk d Hs Hnd Hf. unfold load_entry. cbn [fst]. rewrite map_map. cbn [fst].
  assert (Hall : NoDup (map fst (flat_map (walk_root disk d) (include d)))).
  { apply NoDup_map_flat_map; [exact Hnd| |].
    - intros r _. unfold walk_root. destruct (lookup disk r) as [n|] eqn:En; [|constructor].
      apply walk_nodup. now apply (sound_lookup disk r).
    - assert (Hone : forall a b x ba bb, In a (include d) -> In b (include d) -> List.length a <= List.length b ->
          In (x, ba) (walk_root disk d a) -> In (x, bb) (walk_root disk d b) -> a = b).
      { intros a b x ba bb Ha Hb Hle Hwa Hwb.
        apply walk_root_spec in Hwa; [|exact Hs]. apply walk_root_spec in Hwb; [|exact Hs].
        destruct Hwa as (Hua & (m & Hl & _) & Hqa). destruct Hwb as (Hub & _ & _).
        pose proof (under_linear a b x Hua Hub Hle) as Hab.
        destruct (list_eq_dec string_dec a b) as [->|Hne]; [reflexivity|]. exfalso.
        assert (Hdir : exists k, lookup disk b = Some (Dir k)).
        { destruct (list_eq_dec string_dec b x) as [->|Hbx].
          - destruct m as [y|k]; [|now exists k]. exfalso.
            apply (Hf x a Hb Ha Hab); [congruence|]. now exists y.
          - now apply (above_dir disk b x m Hl Hub). }
        destruct Hdir as [k Hk]. destruct (Hqa b k Hab Hub Hk) as [->|[_ Hx]]; [now elim Hne|contradiction]. }
      intros a b x Ha Hb Hxa Hxb. apply in_map_iff in Hxa, Hxb.
      destruct Hxa as ([qa ba] & Ea & Hwa). destruct Hxb as ([qb bb] & Eb & Hwb). cbn [fst] in Ea, Eb. subst qa qb.
      destruct (le_ge_dec (List.length a) (List.length b)) as [Hle|Hge].
      + now apply (Hone a b x ba bb).
      + symmetry. now apply (Hone b a x bb ba). }
  clear - Hall. induction (flat_map (walk_root disk d) (include d)) as [|[q b] l IH]; simpl in *; [constructor|].
  inversion Hall as [|x y Hni Hnd Heq]; subst.
  destruct (negb b && has_extension d q); [|now apply IH]. simpl. constructor; [|now apply IH].
  intros Hin. apply Hni. apply in_map_iff in Hin. destruct Hin as (x & Hx & Hin). apply filter_In in Hin.
  apply in_map_iff. exists x. tauto.
Qed.
Print Assumptions C52_once.

(** ** The configurations that are sent *)
Definition base_dirs (base : path) : directories := Directories ["sp"; "inc"] [base] [base ++ [".git"]].

Lemma base_wanted base p : wanted_extension (extensions (base_dirs base)) p <-> path_ends_in p "sp" \/ path_ends_in p "inc".
Proof.
  unfold wanted_extension. cbn [base_dirs extensions]. split.
  - intros (e & Hin & Hor). destruct Hin as [<-|[<-|[]]]; destruct Hor as [H|[H _]]; auto; discriminate.
  - intros [H|H]; [exists "sp"|exists "inc"]; (split; [simpl; auto|now left]).
Qed.
Lemma base_included base p : included (base_dirs base) p <-> under base p /\ ~ under (base ++ [".git"]) p.
Proof.
  unfold included. cbn [base_dirs include exclude]. split.
  - intros (i & [<-|[]] & Hu & Hall). split; [exact Hu|]. intros Hg. specialize (Hall _ (or_introl eq_refl) Hg).
    rewrite app_length in Hall. simpl in Hall. lia.
  - intros [Hu Hg]. exists base. split; [now left|]. split; [exact Hu|]. intros e [<-|[]] He. contradiction.
Qed.
Lemma git_no_extension base e : ~ path_ends_in (base ++ [".git"]) e.
Proof.
  intros (dir & name & Heq & stem & Hs & Hn & _). apply app_inj_tail in Heq. destruct Heq as [_ <-].
  destruct stem as [|a stem]; [now elim Hs|]. simpl in Hn. injection Hn as _ Hn.
  destruct stem as [|b stem]; simpl in Hn; [discriminate|]. injection Hn as _ Hn.
  destruct stem as [|c stem]; simpl in Hn; [discriminate|]. injection Hn as _ Hn.
  destruct stem as [|x stem]; simpl in Hn; [discriminate|]. injection Hn as _ Hn.
  destruct stem; discriminate.
Qed.
Lemma base_contains base p : contains_file (sp_files_recursively base) p = true <-> source_file base p.
Proof.
  change (sp_files_recursively base) with (Dirs (base_dirs base)). cbn [contains_file].
  rewrite dirs_contain_file_spec, base_wanted, base_included. unfold source_file. tauto.
Qed.
Lemma base_contains_dir base p :
  contains_dir (sp_files_recursively base) p = true <-> under base p /\ ~ under (base ++ [".git"]) p.
Proof.
  change (sp_files_recursively base) with (Dirs (base_dirs base)). cbn [contains_dir].
  rewrite includes_path_spec. apply base_included.
Qed.

Lemma base_loads disk base p c :
  sound_disk disk ->
  (In (p, c) (fst (load_entry disk (sp_files_recursively base) false)) <->
   exists b, lookup disk p = Some (File b) /\ c = Some b /\ source_file base p).
Proof.
  intros Hs. change (sp_files_recursively base) with (Dirs (base_dirs base)). rewrite C52_walk; [|exact Hs| |].
  - split.
    + intros (b & H1 & H2 & H3 & H4). exists b. split; [exact H1|]. split; [exact H2|].
      apply base_wanted in H3. apply base_included in H4. split; tauto.
    + intros (b & H1 & H2 & H3 & H4). exists b. split; [exact H1|]. split; [exact H2|].
      split; [now apply base_wanted|now apply base_included].
  - intros e [<-|[]] He. apply base_wanted in He. destruct He as [He|He]; now apply git_no_extension in He.
  - intros e [<-|[]] [H|[]]. apply (f_equal (@List.length string)) in H. rewrite app_length in H. simpl in H. lia.
Qed.

Lemma base_watches disk base q :
  sound_disk disk ->
  (In q (snd (load_entry disk (sp_files_recursively base) true)) <->
   dir_on disk q /\ under base q /\ ~ under (base ++ [".git"]) q).
Proof.
  intros Hs. unfold load_entry, sp_files_recursively. cbn [snd include flat_map]. rewrite app_nil_r.
  fold (base_dirs base). rewrite in_map_iff. split.
  - intros ([q' b] & E & H). cbn [fst] in E. subst q'. apply filter_In in H. destruct H as [H Hb]. cbn [snd] in Hb. subst b.
    apply walk_root_spec in H; [|exact Hs]. destruct H as (Hu & (m & Hl & Hm) & Hq). destruct m as [x|k]; [discriminate|].
    split; [now exists k|]. split; [exact Hu|]. intros Hg.
    assert (Hgd : exists k', lookup disk (base ++ [".git"]) = Some (Dir k')).
    { destruct (list_eq_dec string_dec (base ++ [".git"]) q) as [->|Hne]; [now exists k|]. now apply (above_dir disk _ q (Dir k)). }
    destruct Hgd as [k' Hk'].
    destruct (Hq _ k' (under_app _ _) Hg Hk') as [Heq|[Hx _]].
    + apply (f_equal (@List.length string)) in Heq. rewrite app_length in Heq. simpl in Heq. lia.
    + apply Hx. now left.
  - intros ((k & Hl) & Hu & Hg). exists (q, true). split; [reflexivity|]. apply filter_In. split; [|reflexivity].
    apply walk_root_spec; [exact Hs|]. split; [exact Hu|]. split; [now exists (Dir k)|]. intros r k' Hbr Hrq _.
    destruct (list_eq_dec string_dec r base) as [->|Hne]; [now left|]. right. split; intros [H|[]]; subst r; [contradiction|now elim Hne].
Qed.

Definition source_of (bases : list path) (p : path) : Prop := exists base, In base bases /\ source_file base p.

(** ** What one configuration does *)
Definition chosen (k : nat) (load : list entry) (watch : list nat) : list entry :=
  map snd (filter (fun ie => existsb (Nat.eqb (fst ie)) watch) (combine (seq k (List.length load)) load)).

Lemma load_entries_gen dsk watch load : forall k a out,
  fold_left (fun (acc : actor * list loader_message) ie =>
      let '(a, out) := acc in
      let w := existsb (Nat.eqb (fst ie)) watch in
      let a := if w then Actor (watched_entries a ++ [snd ie]) (watching a) else a in
      let '(files, paths) := load_entry dsk (snd ie) w in
      (watch_path a paths, out ++ [Loaded files]))
    (combine (seq k (List.length load)) load) (a, out) =
  (Actor (watched_entries a ++ chosen k load watch)
         (option_map (fun w => w ++ flat_map (fun e => snd (load_entry dsk e true)) (chosen k load watch)) (watching a)),
   out ++ map (fun e => Loaded (fst (load_entry dsk e false))) load).
Proof.
  induction load as [|e load IH]; intros k a out.
  - cbn [List.length seq combine fold_left chosen filter map flat_map]. unfold chosen. cbn [List.length seq combine filter map flat_map].
    rewrite !app_nil_r. destruct a as [we [w|]]; cbn [watched_entries watching option_map]; now rewrite ?app_nil_r.
  - unfold chosen. cbn [List.length seq combine fold_left filter fst snd].
    destruct (existsb (Nat.eqb k) watch) eqn:Ew.
    + destruct (load_entry dsk e true) as [fs ps] eqn:El. rewrite IH. unfold chosen. cbn [map flat_map snd].
      rewrite El. cbn [snd]. unfold watch_path. cbn [watched_entries watching]. rewrite <- !app_assoc. cbn [List.app].
      f_equal.
      * f_equal. destruct (watching a) as [w|]; cbn [option_map]; [|reflexivity]. now rewrite <- app_assoc.
      * f_equal. f_equal. rewrite <- (load_entry_files dsk e true), El. reflexivity.
    + destruct (load_entry dsk e false) as [fs ps] eqn:El. rewrite IH. unfold chosen. cbn [map flat_map snd].
      assert (ps = []) as ->.
      { destruct e as [l|d]; cbn [load_entry] in El; injection El as _ <-; reflexivity. }
      unfold watch_path. cbn [watched_entries watching]. rewrite <- !app_assoc. cbn [List.app]. f_equal.
      * f_equal. destruct (watching a) as [w|]; cbn [option_map]; [|reflexivity]. now rewrite <- app_assoc.
      * now rewrite El.
Qed.

Lemma chosen_first load x : chosen 0 (load ++ [x]) (seq 0 (List.length load)) = load.
Proof.
  unfold chosen.
  assert (H : forall l k n, k + List.length l <= n -> forall y,
     map snd (filter (fun ie : nat * entry => existsb (Nat.eqb (fst ie)) (seq 0 n))
        (combine (seq k (List.length l)) l ++ y)) =
     l ++ map snd (filter (fun ie : nat * entry => existsb (Nat.eqb (fst ie)) (seq 0 n)) y)).
  { induction l as [|e l IH]; intros k n Hk y; [reflexivity|]. cbn [List.length] in *.
    cbn [seq combine List.app filter fst snd].
    assert (existsb (Nat.eqb k) (seq 0 n) = true) as ->.
    { apply existsb_exists. exists k. split; [apply in_seq; lia|apply Nat.eqb_refl]. }
    cbn [map snd]. f_equal. apply IH. lia. }
  rewrite app_length. cbn [List.length]. rewrite seq_app. cbn [seq].
  assert (Hc : forall (l1 : list nat) (l2 : list entry) a b, List.length l1 = List.length l2 ->
     combine (l1 ++ [a]) (l2 ++ [b]) = combine l1 l2 ++ [(a, b)]).
  { clear H. induction l1 as [|n l1 IH]; intros [|e l2] a b Hlen; try discriminate; [reflexivity|].
    cbn [List.app combine]. f_equal. apply IH. now injection Hlen. }
  rewrite Hc by apply seq_length. rewrite H by lia. cbn [filter fst].
  assert (existsb (Nat.eqb (0 + List.length load)) (seq 0 (List.length load)) = false) as ->.
  { destruct (existsb _ _) eqn:E; [|reflexivity]. apply existsb_exists in E. destruct E as (n & Hn & He).
    apply in_seq in Hn. apply Nat.eqb_eq in He. lia. }
  cbn [map]. apply app_nil_r.
Qed.

Lemma configure_step w incs root :
  do_step w (Configure incs root) =
  World (disk w)
    (Actor (map sp_files_recursively incs)
       (match incs with
        | [] => None
        | _ => Some (flat_map (fun e => snd (load_entry (disk w) e true)) (map sp_files_recursively incs))
        end))
    (fold_left handle_loaded
       (map (fun e => Loaded (fst (load_entry (disk w) e false))) (map sp_files_recursively (incs ++ [root]))) (files w)).
Proof.
  cbn [do_step]. unfold on_config, load_entries, deliver. rewrite load_entries_gen, chosen_first.
  cbn [fst snd watched_entries watching List.app]. rewrite !map_app. cbn [map].
  destruct incs as [|i incs]; reflexivity.
Qed.

Lemma fold_loaded dsk es : sound_disk dsk -> forall v p,
  (forall e, In e es -> exists base, e = sp_files_recursively base) ->
  (forall b, lookup dsk p = Some (File b) -> (exists base, In (sp_files_recursively base) es /\ source_file base p) ->
     fold_left handle_loaded (map (fun e => Loaded (fst (load_entry dsk e false))) es) v p = Some b) /\
  (~ (file_on dsk p /\ exists base, In (sp_files_recursively base) es /\ source_file base p) ->
     fold_left handle_loaded (map (fun e => Loaded (fst (load_entry dsk e false))) es) v p = v p).
Proof.
  intros Hs. induction es as [|e es IH]; intros v p Hes; cbn [map fold_left].
  - split; [intros b _ (base & [] & _)|reflexivity].
  - assert (Hes' : forall x, In x es -> exists base, x = sp_files_recursively base) by (intros x Hx; apply Hes; now right).
    set (fs := fst (load_entry dsk e false)).
    destruct (Hes e (or_introl eq_refl)) as [be Hbe].
    assert (Hread : forall q c, In (q, c) fs -> c = read dsk q).
    { intros q c Hin. unfold fs in Hin. rewrite Hbe in Hin. apply base_loads in Hin; [|exact Hs].
      destruct Hin as (b & Hl & -> & _). unfold read. now rewrite Hl. }
    destruct (handle_loaded_read dsk fs v p Hread) as [Hin Hout].
    destruct (IH (handle_loaded v (Loaded fs)) p Hes') as [IH1 IH2]. split.
    + intros b Hl (base & Hb & Hsrc).
      assert (Hdec : (exists base', In (sp_files_recursively base') es /\ source_file base' p) \/
                     ~ (exists base', In (sp_files_recursively base') es /\ source_file base' p)).
      { destruct (existsb (fun e' => contains_file e' p) es) eqn:Ee.
        - left. apply existsb_exists in Ee. destruct Ee as (e' & He' & Hc).
          destruct (Hes' e' He') as [b' ->]. exists b'. split; [exact He'|]. now apply base_contains.
        - right. intros (b' & Hb' & Hs'). apply base_contains in Hs'.
          assert (existsb (fun e' => contains_file e' p) es = true) by (apply existsb_exists; eauto). congruence. }
      destruct Hdec as [Hyes|Hno].
      * now apply IH1.
      * rewrite IH2 by tauto. destruct Hb as [Hb|Hb]; [|elim Hno; eauto].
        rewrite Hin; [unfold read; now rewrite Hl|]. apply in_map_iff. exists (p, Some b). split; [reflexivity|].
        unfold fs. rewrite Hb. apply base_loads; [exact Hs|]. eauto.
    + intros Hn. rewrite IH2.
      * apply Hout. intros H. apply Hn. apply in_map_iff in H. destruct H as ([q c] & Eq & H). cbn [fst] in Eq. subst q.
        unfold fs in H. rewrite Hbe in H. apply base_loads in H; [|exact Hs]. destruct H as (b & Hl & _ & Hsrc).
        split; [now exists b|]. exists be. split; [left; now symmetry|exact Hsrc].
      * intros [Hf (b & Hb & Hsrc)]. apply Hn. split; [exact Hf|]. exists b. split; [now right|exact Hsrc].
Qed.

(** A configuration loads the source files of its directories with their contents, and leaves every other file as it was. *)
Theorem C52_configure : forall w incs root p,
  sound_disk (disk w) ->
  (forall b, lookup (disk w) p = Some (File b) -> source_of (incs ++ [root]) p ->
     files (do_step w (Configure incs root)) p = Some b) /\
  (~ (file_on (disk w) p /\ source_of (incs ++ [root]) p) ->
     files (do_step w (Configure incs root)) p = files w p).
Proof.
  intros w incs root p Hs. rewrite configure_step. cbn [files].
  destruct (fold_loaded (disk w) (map sp_files_recursively (incs ++ [root])) Hs (files w) p) as [H1 H2].
  { intros e He. apply in_map_iff in He. destruct He as (b & <- & _). now exists b. }
  assert (Heq : (exists base, In (sp_files_recursively base) (map sp_files_recursively (incs ++ [root])) /\ source_file base p)
                <-> source_of (incs ++ [root]) p).
  { split.
    - intros (b & Hb & Hsrc). apply in_map_iff in Hb. destruct Hb as (b' & Hb' & Hin). exists b'. split; [exact Hin|].
      injection Hb' as -> _. exact Hsrc.
    - intros (b & Hb & Hsrc). exists b. split; [now apply in_map|exact Hsrc]. }
  split.
  - intros b Hl Hsrc. apply H1; [exact Hl|]. now apply Heq.
  - intros Hn. apply H2. rewrite Heq. exact Hn.
Qed.
Print Assumptions C52_configure.

(** From the start: what is known is exactly the source files on disk. *)
Theorem C52_start : forall n incs root p b,
  sound_disk n ->
  (files (run (start n) [Configure incs root]) p = Some b <->
   lookup n p = Some (File b) /\ source_of (incs ++ [root]) p).
Proof.
  intros n incs root p b Hs. unfold run. cbn [fold_left].
  destruct (C52_configure (start n) incs root p Hs) as [H1 H2]. cbn [start disk files] in *. split.
  - intros H.
    assert (Hdec : {b' | lookup n p = Some (File b')} + {~ file_on n p}).
    { destruct (lookup n p) as [[x|k]|] eqn:E; [left; now exists x| |]; right; intros [y Hy]; congruence. }
    destruct Hdec as [[b' Hb']|Hno].
    + destruct (existsb (fun base => contains_file (sp_files_recursively base) p) (incs ++ [root])) eqn:Ee.
      * apply existsb_exists in Ee. destruct Ee as (base & Hin & Hc). apply base_contains in Hc.
        assert (Hsrc : source_of (incs ++ [root]) p) by (exists base; now split).
        rewrite (H1 b' Hb' Hsrc) in H. injection H as <-. now split.
      * rewrite H2 in H; [discriminate|]. intros [_ (base & Hin & Hsrc)]. apply base_contains in Hsrc.
        assert (existsb (fun base => contains_file (sp_files_recursively base) p) (incs ++ [root]) = true)
          by (apply existsb_exists; eauto). congruence.
    + rewrite H2 in H; [discriminate|tauto].
  - intros [Hl Hsrc]. now apply H1.
Qed.
Print Assumptions C52_start.

(** The directories watched after a configuration *)
Theorem C52_watching : forall w incs root q,
  sound_disk (disk w) ->
  watched_entries (act (do_step w (Configure incs root))) = map sp_files_recursively incs /\
  match watching (act (do_step w (Configure incs root))) with
  | None => incs = []
  | Some l => In q l <-> dir_on (disk w) q /\ exists base, In base incs /\ under base q /\ ~ under (base ++ [".git"]) q
  end.
Proof.
  intros w incs root q Hs. rewrite configure_step. cbn [act watched_entries watching]. split; [reflexivity|].
  destruct incs as [|i incs]; [reflexivity|]. rewrite in_flat_map. split.
  - intros (e & He & Hq). apply in_map_iff in He. destruct He as (base & <- & Hb). apply base_watches in Hq; [|exact Hs].
    destruct Hq as (Hd & Hu & Hg). split; [exact Hd|]. now exists base.
  - intros (Hd & base & Hb & Hu & Hg). exists (sp_files_recursively base). split; [now apply in_map|].
    apply base_watches; [exact Hs|]. auto.
Qed.
Print Assumptions C52_watching.

(** ** Reports of changes *)

(** The editor reports [p]: afterwards what is known of [p] is what is on disk, deleted files included. *)
Theorem C52_editor : forall w p q,
  files (do_step w (EditorSays p)) q = if list_eq_dec string_dec p q then read (disk w) p else files w q.
Proof.
  intros w p q. cbn [do_step]. unfold on_invalidate, deliver. cbn [fst snd fold_left files handle_loaded].
  unfold set_file_contents, path_eqb. destruct (list_eq_dec string_dec p q); reflexivity.
Qed.
Print Assumptions C52_editor.

Lemma event_gen dsk ps : forall a fs,
  exists more dirs,
  fold_left (fun (acc : actor * list (path * option bytes)) p =>
        let '(a, files) := acc in
        match lookup dsk p with
        | None => (a, files)
        | Some n =>
            if is_dir n && existsb (fun e => contains_dir e p) (watched_entries a) then (watch_path a [p], files)
            else if is_dir n then (a, files)
            else if negb (existsb (fun e => contains_file e p) (watched_entries a)) then (a, files)
            else (a, files ++ [(p, read dsk p)])
        end) ps (a, fs) =
  (Actor (watched_entries a) (option_map (fun w => w ++ dirs) (watching a)), fs ++ more) /\
  (forall q c, In (q, c) more <->
     In q ps /\ (exists b, lookup dsk q = Some (File b) /\ c = Some b) /\
     existsb (fun e => contains_file e q) (watched_entries a) = true) /\
  (forall q, In q dirs <-> In q ps /\ dir_on dsk q /\ existsb (fun e => contains_dir e q) (watched_entries a) = true).
Proof.
  induction ps as [|p ps IH]; intros a fs; cbn [fold_left].
  - exists [], []. rewrite app_nil_r. split; [|split; [intros q c|intros q]; simpl; tauto].
    destruct a as [we [w|]]; cbn [watched_entries watching option_map]; now rewrite ?app_nil_r.
  - destruct (lookup dsk p) as [n|] eqn:El.
    + destruct n as [b|k]; cbn [is_dir andb].
      * destruct (existsb (fun e => contains_file e p) (watched_entries a)) eqn:Ec; cbn [negb].
        -- destruct (IH a (fs ++ [(p, read dsk p)])) as (more & dirs & Heq & Hm & Hd).
           exists ((p, read dsk p) :: more), dirs. split; [rewrite Heq; now rewrite <- app_assoc|]. split.
           ++ intros q c. simpl. rewrite Hm. split.
              ** intros [H|H]; [|tauto]. injection H as <- <-. split; [now left|]. split; [|exact Ec].
                 exists b. split; [exact El|]. unfold read. now rewrite El.
              ** intros ([<-|Hq] & (b' & Hl & ->) & Hc); [|right; eauto 6].
                 left. unfold read. now rewrite Hl.
           ++ intros q. rewrite Hd. simpl. split; [tauto|]. intros ([<-|Hq] & [k Hk] & Hc); [congruence|].
              split; [exact Hq|]. split; [now exists k|exact Hc].
        -- destruct (IH a fs) as (more & dirs & Heq & Hm & Hd). exists more, dirs. split; [exact Heq|]. split.
           ++ intros q c. rewrite Hm. simpl. split; [tauto|]. intros ([<-|Hq] & (b' & Hl & ->) & Hc); [congruence|eauto 6].
           ++ intros q. rewrite Hd. simpl. split; [tauto|]. intros ([<-|Hq] & [k Hk] & Hc); [congruence|].
              split; [exact Hq|]. split; [now exists k|exact Hc].
      * destruct (existsb (fun e => contains_dir e p) (watched_entries a)) eqn:Ec.
        -- destruct (IH (watch_path a [p]) fs) as (more & dirs & Heq & Hm & Hd). exists more, (p :: dirs). split; [|split].
           ++ rewrite Heq. unfold watch_path. cbn [watched_entries watching]. f_equal. f_equal.
              destruct (watching a) as [w|]; cbn [option_map]; [|reflexivity]. now rewrite <- app_assoc.
           ++ intros q c. rewrite Hm. cbn [watch_path watched_entries]. simpl. split; [tauto|].
              intros ([<-|Hq] & (b' & Hl & ->) & Hc); [congruence|eauto 6].
           ++ intros q. simpl. rewrite Hd. cbn [watch_path watched_entries]. split.
              ** intros [<-|H]; [|tauto]. split; [now left|]. split; [now exists k|exact Ec].
              ** intros ([<-|Hq] & Hdir & Hc); tauto.
        -- destruct (IH a fs) as (more & dirs & Heq & Hm & Hd). exists more, dirs. split; [exact Heq|]. split.
           ++ intros q c. rewrite Hm. simpl. split; [tauto|]. intros ([<-|Hq] & (b' & Hl & ->) & Hc); [congruence|eauto 6].
           ++ intros q. rewrite Hd. simpl. split; [tauto|]. intros ([<-|Hq] & Hdir & Hc); [congruence|tauto].
    + destruct (IH a fs) as (more & dirs & Heq & Hm & Hd). exists more, dirs. split; [exact Heq|]. split.
      * intros q c. rewrite Hm. simpl. split; [tauto|]. intros ([<-|Hq] & (b' & Hl & ->) & Hc); [congruence|eauto 6].
      * intros q. rewrite Hd. simpl. split; [tauto|]. intros ([<-|Hq] & [k Hk] & Hc); [congruence|].
        split; [exact Hq|]. split; [now exists k|exact Hc].
Qed.

(** The watcher reports [ps]: the source files among them that exist are read again, the directories among them
    are watched from then on, and nothing else changes. *)
Theorem C52_watcher : forall w incs ps p,
  watched_entries (act w) = map sp_files_recursively incs ->
  (forall b, In p ps -> lookup (disk w) p = Some (File b) -> source_of incs p ->
     files (do_step w (WatcherSays ps)) p = Some b) /\
  (~ (In p ps /\ file_on (disk w) p /\ source_of incs p) -> files (do_step w (WatcherSays ps)) p = files w p) /\
  watched_entries (act (do_step w (WatcherSays ps))) = watched_entries (act w) /\
  match watching (act w), watching (act (do_step w (WatcherSays ps))) with
  | None, None => True
  | Some l, Some l' =>
      In p l' <-> In p l \/ (In p ps /\ dir_on (disk w) p /\
                             exists base, In base incs /\ under base p /\ ~ under (base ++ [".git"]) p)
  | _, _ => False
  end.
Proof.
  intros w incs ps p Hwe. cbn [do_step]. unfold on_event, deliver.
  destruct (event_gen (disk w) ps (act w) []) as (more & dirs & Heq & Hm & Hd). rewrite Heq.
  cbn [fst snd fold_left files act watched_entries watching List.app].
  assert (Hread : forall q c, In (q, c) more -> c = read (disk w) q).
  { intros q c H. apply Hm in H. destruct H as (_ & (b & Hl & ->) & _). unfold read. now rewrite Hl. }
  destruct (handle_loaded_read (disk w) more (files w) p Hread) as [Hin Hout].
  assert (Hsrc : existsb (fun e => contains_file e p) (watched_entries (act w)) = true <-> source_of incs p).
  { rewrite Hwe, existsb_exists. split.
    - intros (e & He & Hc). apply in_map_iff in He. destruct He as (b & <- & Hb). exists b. split; [exact Hb|].
      now apply base_contains.
    - intros (b & Hb & Hc). exists (sp_files_recursively b). split; [now apply in_map|]. now apply base_contains. }
  assert (Hdir : existsb (fun e => contains_dir e p) (watched_entries (act w)) = true <->
                 exists base, In base incs /\ under base p /\ ~ under (base ++ [".git"]) p).
  { rewrite Hwe, existsb_exists. split.
    - intros (e & He & Hc). apply in_map_iff in He. destruct He as (b & <- & Hb). exists b. split; [exact Hb|].
      now apply base_contains_dir.
    - intros (b & Hb & Hc). exists (sp_files_recursively b). split; [now apply in_map|]. now apply base_contains_dir. }
  split; [|split; [|split]].
  - intros b Hp Hl Hs. rewrite Hin; [unfold read; now rewrite Hl|]. apply in_map_iff. exists (p, Some b).
    split; [reflexivity|]. apply Hm. split; [exact Hp|]. split; [now exists b|]. now apply Hsrc.
  - intros Hn. apply Hout. intros H. apply Hn. apply in_map_iff in H. destruct H as ([q c] & Eq & H). cbn [fst] in Eq.
    subst q. apply Hm in H. destruct H as (Hp & (b & Hl & _) & Hc). split; [exact Hp|]. split; [now exists b|]. now apply Hsrc.
  - reflexivity.
  - destruct (watching (act w)) as [l|]; cbn [option_map]; [|exact I]. rewrite in_app_iff, Hd, Hdir. reflexivity.
Qed.
Print Assumptions C52_watcher.

(** ** Any sequence of changes *)

(** the source files are known as they are on disk *)
Definition in_step (incs : list path) (root : path) (w : world) : Prop :=
  forall p, source_of (incs ++ [root]) p -> files w p = read (disk w) p.

(** [reports] tell of the change of [p]: the editor does, or the watcher does and the file is there and in an include directory *)
Definition told (incs : list path) (n : node) (reports : list step) (p : path) : Prop :=
  In (EditorSays p) reports \/
  (file_on n p /\ source_of incs p /\ exists ps, In (WatcherSays ps) reports /\ In p ps).
Definition is_report (s : step) : Prop := match s with EditorSays _ | WatcherSays _ => True | _ => False end.

(** one change of the disk with the reports that follow it *)
Definition fair (incs : list path) (root : path) (old : node) (change : node * list step) : Prop :=
  Forall is_report (snd change) /\
  forall p, source_of (incs ++ [root]) p -> read (fst change) p <> read old p -> told incs (fst change) (snd change) p.
Fixpoint all_fair (incs : list path) (root : path) (old : node) (changes : list (node * list step)) : Prop :=
  match changes with
  | [] => True
  | ch :: rest => fair incs root old ch /\ all_fair incs root (fst ch) rest
  end.
Definition steps_of (changes : list (node * list step)) : list step :=
  flat_map (fun ch => DiskBecomes (fst ch) :: snd ch) changes.

Lemma report_step incs w s :
  watched_entries (act w) = map sp_files_recursively incs -> is_report s ->
  disk (do_step w s) = disk w /\ watched_entries (act (do_step w s)) = map sp_files_recursively incs /\
  forall p, (files w p = read (disk w) p \/ told incs (disk w) [s] p) -> files (do_step w s) p = read (disk w) p.
Proof.
  intros Hwe Hs. destruct s as [n|i r|p0|ps]; try contradiction.
  - split; [reflexivity|]. split; [exact Hwe|]. intros p Hp. rewrite C52_editor.
    destruct (list_eq_dec string_dec p0 p) as [->|Hne]; [reflexivity|].
    destruct Hp as [Hp|[[Hp|[]]|(_ & _ & qs & [Hq|[]] & _)]]; [exact Hp|congruence|discriminate].
  - assert (Hd : disk (do_step w (WatcherSays ps)) = disk w).
    { cbn [do_step]. unfold deliver. destruct (on_event (disk w) ps (act w)) as [a out]. reflexivity. }
    split; [exact Hd|]. split.
    + destruct (C52_watcher w incs ps [] Hwe) as (_ & _ & H & _). now rewrite H.
    + intros p Hp. destruct (C52_watcher w incs ps p Hwe) as (H1 & H2 & _ & _).
      destruct (in_dec (list_eq_dec string_dec) p ps) as [Hin|Hni].
      * destruct (existsb (fun base => contains_file (sp_files_recursively base) p) incs) eqn:Ee.
        -- apply existsb_exists in Ee. destruct Ee as (base & Hb & Hc). apply base_contains in Hc.
           destruct (lookup (disk w) p) as [[b|k]|] eqn:El.
           ++ unfold read. rewrite El. apply H1; auto. now exists base.
           ++ rewrite H2 by (intros (_ & [b Hb'] & _); congruence).
              destruct Hp as [Hp|[[Hp|[]]|([b Hb'] & _)]]; [exact Hp|discriminate|congruence].
           ++ rewrite H2 by (intros (_ & [b Hb'] & _); congruence).
              destruct Hp as [Hp|[[Hp|[]]|([b Hb'] & _)]]; [exact Hp|discriminate|congruence].
        -- assert (Hno : ~ source_of incs p).
           { intros (base & Hb & Hc). apply base_contains in Hc.
             assert (existsb (fun base => contains_file (sp_files_recursively base) p) incs = true)
               by (apply existsb_exists; eauto). congruence. }
           rewrite H2 by tauto. destruct Hp as [Hp|[[Hp|[]]|(_ & Hso & _)]]; [exact Hp|discriminate|contradiction].
      * rewrite H2 by tauto. destruct Hp as [Hp|[[Hp|[]]|(_ & _ & qs & [Hq|[]] & Hq')]]; [exact Hp|discriminate|].
        injection Hq as <-. contradiction.
Qed.

Lemma reports_run incs w ss :
  watched_entries (act w) = map sp_files_recursively incs -> Forall is_report ss ->
  disk (run w ss) = disk w /\ watched_entries (act (run w ss)) = map sp_files_recursively incs /\
  forall p, (files w p = read (disk w) p \/ told incs (disk w) ss p) -> files (run w ss) p = read (disk w) p.
Proof.
  revert w. induction ss as [|s ss IH]; intros w Hwe Hall; unfold run; cbn [fold_left].
  - split; [reflexivity|]. split; [exact Hwe|]. intros p [H|[[]|(_ & _ & ps & [] & _)]]. exact H.
  - inversion Hall as [|x y Hs Hss Heq]; subst. destruct (report_step incs w s Hwe Hs) as (Hd & Hw' & Hf).
    destruct (IH (do_step w s) Hw' Hss) as (Hd2 & Hw2 & Hf2). fold (run (do_step w s) ss).
    split; [congruence|]. split; [exact Hw2|]. intros p Hp. rewrite Hd in Hf2. apply Hf2.
    destruct Hp as [Hp|Hp]; [left; apply Hf; now left|].
    destruct Hp as [[Hp|Hp]|(Hfile & Hso & ps & [Hp|Hp] & Hin)].
    + left. apply Hf. right. left. now left.
    + right. now left.
    + left. apply Hf. right. right. split; [exact Hfile|]. split; [exact Hso|]. exists ps. split; [now left|exact Hin].
    + right. right. split; [exact Hfile|]. split; [exact Hso|]. now exists ps.
Qed.

(** After the first configuration, whatever happens to the disk, as long as the changes are told, the source files are
    known as they are on disk. *)
Theorem C52_in_step : forall n incs root changes,
  sound_disk n -> all_fair incs root n changes ->
  in_step incs root (run (start n) (Configure incs root :: steps_of changes)).
Proof.
  intros n incs root changes Hs Hf. unfold run. cbn [fold_left]. fold (run (do_step (start n) (Configure incs root)) (steps_of changes)).
  assert (H0 : in_step incs root (do_step (start n) (Configure incs root))).
  { intros p Hp. destruct (C52_configure (start n) incs root p Hs) as [H1 H2]. cbn [start disk files] in *.
    rewrite configure_step in *. cbn [disk files start] in *. unfold read.
    destruct (lookup n p) as [[b|k]|] eqn:El.
    - now apply H1.
    - apply H2. intros [[b Hb] _]. congruence.
    - apply H2. intros [[b Hb] _]. congruence. }
  assert (Hw0 : watched_entries (act (do_step (start n) (Configure incs root))) = map sp_files_recursively incs)
    by (rewrite configure_step; reflexivity).
  assert (Hd0 : disk (do_step (start n) (Configure incs root)) = n) by (rewrite configure_step; reflexivity).
  revert H0 Hw0 Hd0. generalize (do_step (start n) (Configure incs root)). clear Hs. revert n Hf.
  induction changes as [|[n' rep] changes IH]; intros n Hf w H0 Hw0 Hd0; [exact H0|].
  cbn [all_fair fst snd] in Hf. destruct Hf as [[Hrep Htold] Hrest]. cbn [fst snd] in Hrep, Htold.
  unfold steps_of. cbn [flat_map fst snd]. unfold run. rewrite fold_left_app. cbn [fold_left].
  fold (steps_of changes). fold (run (do_step w (DiskBecomes n')) rep).
  fold (run (run (do_step w (DiskBecomes n')) rep) (steps_of changes)).
  set (w1 := do_step w (DiskBecomes n')).
  assert (Hw1 : watched_entries (act w1) = map sp_files_recursively incs) by exact Hw0.
  destruct (reports_run incs w1 rep Hw1 Hrep) as (Hd2 & Hw2 & Hf2).
  apply (IH n' Hrest); [|exact Hw2|exact Hd2].
  intros p Hp. rewrite Hd2. apply Hf2. change (disk w1) with n'. change (files w1 p) with (files w p).
  rewrite (H0 p Hp), Hd0.
  assert (Hdec : {read n' p = read n p} + {read n' p <> read n p}) by (repeat decide equality).
  destruct Hdec as [He|Hne]; [left; now symmetry|right; now apply Htold].
Qed.
Print Assumptions C52_in_step.

(** ** What goes wrong *)
Definition small_disk : node :=
  Dir [("srv", Dir [("inc", Dir [("a.inc", File "a"); ("old.inc", File "o"); (".git", Dir [("x.sp", File "g")])]);
                    ("p", Dir [("m.sp", File "m"); ("readme.txt", File "r"); (".sp", File "h"); ("sub", Dir [("n.sp", File "n")])])])].
Definition inc_dir : path := ["srv"; "inc"].
Definition root_dir : path := ["srv"; "p"].

(** A file of an include directory is deleted, and the watcher says so: it is still known.
    The disk is asked about the path first, and a path that is not there is dropped (lib.rs:152). *)
Theorem C52_deleted_refuted :
  let gone := Dir [("srv", Dir [("inc", Dir [("a.inc", File "a")]); ("p", Dir [("m.sp", File "m")])])] in
  let w := run (start small_disk) [Configure [inc_dir] root_dir; DiskBecomes gone; WatcherSays [["srv"; "inc"; "old.inc"]]] in
  lookup gone ["srv"; "inc"; "old.inc"] = None /\
  files w ["srv"; "inc"; "old.inc"] = Some "o".
Proof. vm_compute. split; reflexivity. Qed.
Print Assumptions C52_deleted_refuted.

(** A directory with a source file is moved into an include directory, and the watcher says so: the directory is watched,
    its files are not loaded (lib.rs:153-161). *)
Theorem C52_new_directory_refuted :
  let moved := Dir [("srv", Dir [("inc", Dir [("a.inc", File "a"); ("lib", Dir [("b.inc", File "b")])]); ("p", Dir [])])] in
  let w := run (start small_disk) [Configure [inc_dir] root_dir; DiskBecomes moved; WatcherSays [["srv"; "inc"; "lib"]]] in
  lookup moved ["srv"; "inc"; "lib"; "b.inc"] = Some (File "b") /\
  files w ["srv"; "inc"; "lib"; "b.inc"] = None /\
  match watching (act w) with Some l => In ["srv"; "inc"; "lib"] l | None => False end.
Proof. vm_compute. split; [reflexivity|]. split; [reflexivity|]. right. now left. Qed.
Print Assumptions C52_new_directory_refuted.

(** An include directory is taken out of the configuration: its files stay known. *)
Theorem C52_dropped_directory_refuted :
  let w := run (start small_disk) [Configure [inc_dir] root_dir; Configure [] root_dir] in
  ~ source_of ([] ++ [root_dir]) ["srv"; "inc"; "a.inc"] /\
  files w ["srv"; "inc"; "a.inc"] = Some "a".
Proof.
  split.
  - intros (base & [<-|[]] & _ & [r Hr] & _). discriminate.
  - vm_compute. reflexivity.
Qed.
Print Assumptions C52_dropped_directory_refuted.

(** The walk is not the documented rule for every value of [Directories]: a path that is both included and excluded
    is walked, and so is an excluded path that is a file. (No configuration that is sent has either.) *)
Theorem C52_walk_refuted :
  let tie := Directories ["sp"] [root_dir] [root_dir] in
  let excluded_file := Directories ["sp"] [root_dir] [["srv"; "p"; "m.sp"]] in
  dirs_contain_file tie ["srv"; "p"; "m.sp"] = false /\
  In (["srv"; "p"; "m.sp"], Some "m") (fst (load_entry small_disk (Dirs tie) false)) /\
  dirs_contain_file excluded_file ["srv"; "p"; "m.sp"] = false /\
  In (["srv"; "p"; "m.sp"], Some "m") (fst (load_entry small_disk (Dirs excluded_file) false)).
Proof. vm_compute. repeat split; now left. Qed.
Print Assumptions C52_walk_refuted.

(** ** A case *)
Example C52_nontrivial :
  sound_disk small_disk /\
  let w := run (start small_disk) [Configure [inc_dir] root_dir] in
  files w ["srv"; "inc"; "a.inc"] = Some "a" /\
  files w ["srv"; "inc"; ".git"; "x.sp"] = None /\
  files w ["srv"; "p"; "sub"; "n.sp"] = Some "n" /\
  files w ["srv"; "p"; "readme.txt"] = None /\
  files w ["srv"; "p"; ".sp"] = None /\
  watching (act w) = Some [inc_dir] /\
  (** a change told by the editor, one told by the watcher, and a deletion told by the editor *)
  let later := Dir [("srv", Dir [("inc", Dir [("a.inc", File "a2"); ("old.inc", File "o")]); ("p", Dir [("k.sp", File "k")])])] in
  let reports := [WatcherSays [["srv"; "inc"; "a.inc"]]; EditorSays ["srv"; "p"; "m.sp"]; EditorSays ["srv"; "p"; "k.sp"];
                  EditorSays ["srv"; "p"; "sub"; "n.sp"]] in
  let w2 := run w (DiskBecomes later :: reports) in
  files w2 ["srv"; "inc"; "a.inc"] = Some "a2" /\ files w2 ["srv"; "p"; "m.sp"] = None /\
  files w2 ["srv"; "p"; "k.sp"] = Some "k".
Proof.
  split.
  - unfold small_disk.
    repeat (constructor; [repeat (constructor; [simpl; intuition discriminate|]); constructor|];
            intros n k H; simpl in H;
            repeat (destruct H as [H|H]; [injection H as <- <-; try constructor|]); try contradiction).
    all: try (repeat (constructor; [simpl; intuition discriminate|]); constructor).
    all: intros n k H; simpl in H;
         repeat (destruct H as [H|H]; [injection H as <- <-; try constructor|]); try contradiction.
    all: try (repeat (constructor; [simpl; intuition discriminate|]); constructor).
    all: intros n k H; simpl in H;
         repeat (destruct H as [H|H]; [injection H as <- <-; try constructor|]); try contradiction.
    all: try (repeat (constructor; [simpl; intuition discriminate|]); constructor).
    all: intros n k H; simpl in H;
         repeat (destruct H as [H|H]; [injection H as <- <-; try constructor|]); try contradiction.
  - vm_compute. repeat split.
Qed.
