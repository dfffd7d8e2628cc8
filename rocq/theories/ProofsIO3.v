(** Reading g2o files (C44). *)
From Coq Require Import List NArith ZArith Bool Arith Lia Ascii String Reals Lra.
From Verif Require Import Base SMap Num Det ModelTypes ModelIO SpecCost SpecSolver SpecIO ProofsPoseGraph ProofsIO ProofsQuat.
Import ListNotations.
Local Open Scope string_scope.
Local Open Scope res_scope.
Local Open Scope list_scope.

Section P.
Context {S : Type} `{Num S}.
Variable G : G2oExt S.
Implicit Types s : G2o S.

(** ** One line *)
Definition after_tag (line : string) : option string :=
  match skip_space line with EmptyString => None | s => Some (snd (cut_space s)) end.
Definition vars_of (t : string) : list string := if (t =? "EDGE_SE2") then vars2 else vars3.
Definition mk_of (t : string) : N -> N -> Env S -> res (Meas S) := if (t =? "EDGE_SE2") then edge2 G else edge3.

Lemma line_unfold s l : let t := tag_of (g_token s) l in
  g2o_line G s l = if is_edge t then g2o_edge G t (after_tag l) (vars_of t) (mk_of t) s
                   else if is_vertex t then Ok (mkG t (g_i s) (g_j s) (g_env s) (g_n s) (g_out s)) else Abort.
Proof.
  cbn zeta. unfold g2o_line, tag_of, after_tag. cbn [extract].
  assert (Q : forall t st, (if (t =? "EDGE_SE2") then g2o_edge G t st vars2 (edge2 G) s else if (t =? "EDGE_SE3:QUAT") then g2o_edge G t st vars3 edge3 s
     else if (t =? "VERTEX_SE2") || (t =? "VERTEX_SE3:QUAT") then Ok (mkG t (g_i s) (g_j s) (g_env s) (g_n s) (g_out s)) else Abort) =
     if is_edge t then g2o_edge G t st (vars_of t) (mk_of t) s else if is_vertex t then Ok (mkG t (g_i s) (g_j s) (g_env s) (g_n s) (g_out s)) else Abort).
  { intros t st. unfold is_edge, is_vertex, vars_of, mk_of. destruct (t =? "EDGE_SE2"); cbn [orb]; [exact eq_refl|]. destruct (t =? "EDGE_SE3:QUAT"); exact eq_refl. }
  destruct (skip_space l) as [|c w] eqn:E.
  - apply Q.
  - unfold scan_token. destruct (cut_space (String c w)) as [p r] eqn:EC. cbn [fst snd]. apply Q.
Qed.

Lemma rd_Ok {A} (o : option A) a : rd o = Ok a -> o = Some a.
Proof. destruct o; cbn; congruence. Qed.
Lemma mk_basic t i j e m : mk_of t i j e = Ok m -> basic m /\ mp1 m = i /\ mp2 m = j.
Proof.
  unfold mk_of. destruct (t =? "EDGE_SE2"); [unfold edge2|unfold edge3]; intros E;
    repeat (apply bind_Ok in E; destruct E as (? & _ & E)); injection E as <-; unfold basic; auto 10.
Qed.
Lemma edge_spec t st s s' : g2o_edge G t st (vars_of t) (mk_of t) s = Ok s' ->
  g_token s' = t /\ exists i j m, g_i s' = Some i /\ g_j s' = Some j /\ mk_of t i j (g_env s') = Ok m /\
    g_out s' = g_out s ++ [m] /\ basic m /\ mp1 m = i /\ mp2 m = j /\ (mp m < two64)%N /\ g_n s' = N.max (g_n s) (mp m).
Proof.
  unfold g2o_edge. destruct (extract (g_scanU G) st (g_i s)) as [st1 i]. destruct (extract (g_scanU G) st1 (g_j s)) as [st2 j].
  destruct (extract_all G st2 (g_env s) (vars_of t)) as [st3 e]. intros E.
  apply bind_Ok in E. destruct E as (vi & Ei & E). apply bind_Ok in E. destruct E as (vj & Ej & E). apply rd_Ok in Ei, Ej.
  apply bind_Ok in E. destruct E as (m & Em & E). apply bind_Ok in E. destruct E as (x & Ex & E). injection E as <-. cbn [g_token g_i g_j g_env g_out g_n].
  destruct (mk_basic _ _ _ _ _ Em) as (B & <- & <-). unfold max_pair in Ex. apply require_Ok in Ex. destruct Ex as [Lx Ex]. injection Ex as <-.
  apply N.ltb_lt in Lx. split; auto. exists (mp1 m), (mp2 m), m. repeat (split; [first [assumption|reflexivity]|]).
  unfold mp. destruct (N.ltb_spec (g_n s) (N.max (to_double (mp1 m)) (to_double (mp2 m)))); lia.
Qed.

(** ** Whole files *)
Definition start : G2o S := mkG "" None None env0 0 [].
Lemma largest_app (a b : list (Meas S)) : largest (a ++ b) = N.max (largest a) (largest b).
Proof. induction a as [|x a IH]; [cbn [app]; change (largest (S := S) []) with 0%N; lia|]. change (largest ((x :: a) ++ b)) with (N.max (mp x) (largest (a ++ b))). change (largest (x :: a)) with (N.max (mp x) (largest a)). rewrite IH. lia. Qed.

(** What the state says about the text read. *)
Definition inv (prev : string) (ls : list string) s : Prop :=
  let ts := tags prev ls in
  g_token s = last ts prev /\ Forall (fun t => is_edge t || is_vertex t = true) ts /\
  List.length (g_out s) = List.length (filter is_edge ts) /\ Forall basic (g_out s) /\ Forall (fun m => (mp m < two64)%N) (g_out s) /\
  g_n s = largest (g_out s) /\
  (is_edge (g_token s) = true -> exists ms m i j, g_out s = ms ++ [m] /\ g_i s = Some i /\ g_j s = Some j /\ mk_of (g_token s) i j (g_env s) = Ok m /\ mp1 m = i /\ mp2 m = j).

Lemma last_shift {A} (l : list A) x d : last (x :: l) d = last l x.
Proof. revert x. induction l as [|y l IH]; intros x; [reflexivity|]. change (last (x :: y :: l) d) with (last (y :: l) d). rewrite IH. symmetry.
  destruct l; [reflexivity|]. cbn [last]. clear. revert a. induction l; intros a'; [reflexivity|]. cbn [last]. apply IHl. Qed.
Lemma tags_app prev a b : tags prev (a ++ b) = tags prev a ++ tags (last (tags prev a) prev) b.
Proof.
  revert prev. induction a as [|l a IH]; intros prev; [reflexivity|]. cbn [app tags]. rewrite IH, last_shift. reflexivity.
Qed.

Lemma inv_start : inv "" [] start.
Proof. unfold inv, start. cbn. repeat split; auto. discriminate. Qed.
Lemma inv_line prev ls l s s' : inv prev ls s -> g2o_line G s l = Ok s' -> inv prev (ls ++ [l]) s'.
Proof.
  intros (A & B & C & D & D' & E & _) EL. rewrite line_unfold in EL. unfold inv. rewrite tags_app. cbn [tags]. rewrite <- A.
  set (t := tag_of (g_token s) l) in *. rewrite last_last, filter_app, !app_length. cbn [filter].
  destruct (is_edge t) eqn:EE.
  - destruct (edge_spec _ _ _ _ EL) as (T & i & j & m & Ei & Ej & Em & Eo & Bm & P1 & P2 & Lm & En). rewrite T, Eo.
    split; auto. split; [apply Forall_app; split; auto; constructor; [rewrite EE; reflexivity|constructor]|].
    split; [rewrite app_length, C; reflexivity|]. split; [apply Forall_app; auto|]. split; [apply Forall_app; auto|].
    split; [rewrite largest_app, <- E, En; cbn; lia|]. intros _. exists (g_out s), m, i, j. repeat (split; [first [assumption|reflexivity]|]). assumption.
  - destruct (is_vertex t) eqn:EV; [|discriminate]. injection EL as <-. cbn [g_token g_out g_n g_i g_j g_env].
    split; auto. split; [apply Forall_app; split; auto; constructor; [rewrite EE, EV; reflexivity|constructor]|].
    split; [rewrite C; cbn [List.length]; lia|]. split; auto. split; auto. split; auto. intros; congruence.
Qed.
Lemma inv_run ls : forall pre prev s s', inv prev pre s -> foldM (g2o_line G) s ls = Ok s' -> inv prev (pre ++ ls) s'.
Proof.
  induction ls as [|l ls IH]; intros pre prev s s' I E; cbn [foldM] in E; [injection E as <-; rewrite app_nil_r; auto|].
  apply bind_Ok in E. destruct E as (s1 & E1 & E). replace (pre ++ l :: ls) with ((pre ++ [l]) ++ ls) by (rewrite <- app_assoc; reflexivity).
  eapply IH; [|exact E]. eapply inv_line; eauto.
Qed.
Lemma foldM_app {A B} (f : A -> B -> res A) a l1 l2 : foldM f a (l1 ++ l2) = do a' <- foldM f a l1; foldM f a' l2.
Proof. revert a. induction l1 as [|b l1 IH]; intros a; [reflexivity|]. cbn [app foldM]. destruct (f a b); cbn [bind]; auto. Qed.

Lemma read_run fs f c : fs f = Some c -> read_g2o G fs f = do s <- foldM (g2o_line G) start (lines c); Ok (g_out s, u64 (g_n s + 1)).
Proof. intros E. unfold read_g2o. rewrite E. reflexivity. Qed.

Theorem g2o_shape : forall fs f c ms n, fs f = Some c -> read_g2o G fs f = Ok (ms, n) ->
  let ts := tags "" (lines c) in
  Forall (fun t => is_edge t || is_vertex t = true) ts /\ List.length ms = List.length (filter is_edge ts) /\
  Forall (fun m => mr1 m = 0%N /\ mr2 m = 0%N /\ mweight m = n1 /\ mfixed m = (u64 (mp1 m + 1) =? mp2 m)%N) ms /\
  n = u64 (largest ms + 1).
Proof.
  intros fs f c ms n EF E. rewrite (read_run _ _ _ EF) in E. apply bind_Ok in E. destruct E as (s & E & R). injection R as <- <-.
  destruct (inv_run _ [] _ _ _ inv_start E) as (_ & B & C & D & _ & N & _). cbn [app] in *. cbn zeta.
  split; [exact B|]. split; [exact C|]. split; [exact D|]. rewrite N. reflexivity.
Qed.

Theorem g2o_unknown : forall fs f f' pre l post r c c', fs f' = Some c' -> lines c' = pre -> read_g2o G fs f' = Ok r ->
  fs f = Some c -> lines c = pre ++ l :: post -> blank l = false -> is_edge (tag_of "" l) || is_vertex (tag_of "" l) = false ->
  read_g2o G fs f = Abort.
Proof.
  intros fs f f' pre l post r c c' E' L' R' E L NB U. rewrite (read_run _ _ _ E') in R'. rewrite (read_run _ _ _ E), L, foldM_app. rewrite L' in R'.
  apply bind_Ok in R'. destruct R' as (s & ES & _). rewrite ES. cbn [bind foldM]. rewrite line_unfold.
  assert (T : tag_of (g_token s) l = tag_of "" l). { unfold tag_of, blank in *. destruct (skip_space l); [discriminate|reflexivity]. }
  rewrite T. apply orb_false_iff in U. destruct U as [-> ->]. reflexivity.
Qed.

(** The rest of the run does not depend on the token if the next line has one. *)
Lemma token_irrelevant s t post : (match post with [] => True | l :: _ => blank l = false end) ->
  (do s' <- foldM (g2o_line G) s post; Ok (g_out s', u64 (g_n s' + 1))) =
  (do s' <- foldM (g2o_line G) (mkG t (g_i s) (g_j s) (g_env s) (g_n s) (g_out s)) post; Ok (g_out s', u64 (g_n s' + 1))).
Proof.
  destruct post as [|l post]; [reflexivity|]. intros NB. cbn [foldM]. rewrite !line_unfold.
  assert (T : tag_of (g_token s) l = tag_of t l). { unfold tag_of, blank in *. destruct (skip_space l); [discriminate|reflexivity]. }
  cbn [g_token]. rewrite <- T. reflexivity.
Qed.
Theorem g2o_vertex : forall fs f f' pre v post c c', fs f = Some c -> lines c = pre ++ v :: post -> fs f' = Some c' -> lines c' = pre ++ post ->
  is_vertex (tag_of "" v) = true -> (match post with [] => True | l :: _ => blank l = false end) -> read_g2o G fs f = read_g2o G fs f'.
Proof.
  intros fs f f' pre v post c c' E L E' L' V NB. rewrite (read_run _ _ _ E), (read_run _ _ _ E'), L, L', !foldM_app.
  destruct (foldM (g2o_line G) start pre) as [s| |]; try reflexivity. cbn [bind foldM]. rewrite line_unfold.
  assert (NBv : blank v = false). { unfold blank, tag_of in *. destruct (skip_space v); [discriminate|reflexivity]. }
  assert (T : tag_of (g_token s) v = tag_of "" v). { unfold tag_of, blank in *. destruct (skip_space v); [discriminate|reflexivity]. }
  rewrite T, V. assert (NE : is_edge (tag_of "" v) = false).
  { unfold is_edge, is_vertex in *. destruct (String.eqb_spec (tag_of "" v) "EDGE_SE2") as [EQ|]; [rewrite EQ in V; discriminate|].
    destruct (String.eqb_spec (tag_of "" v) "EDGE_SE3:QUAT") as [EQ|]; [rewrite EQ in V; discriminate|]. reflexivity. }
  rewrite NE. cbn [bind]. symmetry. apply token_irrelevant. exact NB.
Qed.

Lemma extract_none {A} (scan : string -> bool * A * string) x : extract scan None x = (None, x).
Proof. reflexivity. Qed.
Lemma extract_all_none e xs : exists e', extract_all G None e xs = (None, e') /\ forall x, e' x = e x.
Proof.
  revert e. induction xs as [|x xs IH]; intros e; cbn [extract_all]; [eauto|]. cbn [extract].
  destruct (IH (env_set e x (e x))) as (e' & E & Q). exists e'. split; auto. intros y. rewrite Q. unfold env_set. destruct (String.eqb_spec y x); congruence.
Qed.
Lemma mk_ext t i j e e' : (forall x, e' x = e x) -> mk_of t i j e' = mk_of t i j e.
Proof. intros Q. unfold mk_of. destruct (t =? "EDGE_SE2"); [unfold edge2|unfold edge3]; rewrite !Q; reflexivity. Qed.

Theorem g2o_blank : forall fs f f' pre l c c' ms n, fs f' = Some c' -> lines c' = pre -> read_g2o G fs f' = Ok (ms, n) ->
  is_edge (last (tags "" pre) "") = true -> fs f = Some c -> lines c = pre ++ [l] -> blank l = true ->
  exists ms0 m, ms = ms0 ++ [m] /\ read_g2o G fs f = Ok (ms ++ [m], n).
Proof.
  intros fs f f' pre l c c' ms n E' L' R' EE E L B. rewrite (read_run _ _ _ E'), L' in R'. rewrite (read_run _ _ _ E), L, foldM_app.
  apply bind_Ok in R'. destruct R' as (s & ES & R'). injection R' as <- <-. rewrite ES. cbn [bind foldM].
  destruct (inv_run _ [] _ _ _ inv_start ES) as (A & _ & _ & _ & LM & NN & LE). cbn [app] in *. rewrite <- A in EE.
  destruct (LE EE) as (ms0 & m & i & j & Eo & Ei & Ej & Em & P1 & P2). exists ms0, m. split; auto.
  rewrite line_unfold. assert (T : tag_of (g_token s) l = g_token s). { unfold tag_of, blank in *. destruct (skip_space l); [reflexivity|discriminate]. }
  assert (AT : after_tag l = None). { unfold after_tag, blank in *. destruct (skip_space l); [reflexivity|discriminate]. }
  rewrite T, EE, AT. unfold g2o_edge. rewrite !extract_none. destruct (extract_all_none (g_env s) (vars_of (g_token s))) as (e' & Ee & Q). rewrite Ee, Ei, Ej. cbn [rd bind].
  rewrite (mk_ext _ _ _ _ _ Q), Em. cbn [bind]. unfold max_pair. rewrite <- P1, <- P2. fold (mp m).
  assert (Lm : (mp m < two64)%N). { rewrite Forall_forall in LM. apply LM. rewrite Eo. apply in_or_app. right. left. reflexivity. }
  apply N.ltb_lt in Lm. rewrite Lm. cbn [require bind]. cbn [g_out g_n].
  assert (LL : (mp m <= g_n s)%N). { rewrite NN, Eo, largest_app. cbn. lia. }
  destruct (N.ltb_spec (g_n s) (mp m)); [lia|]. reflexivity.
Qed.

(** ** Well-formed files *)
Definition tail_of (l : list string) : string := match l with [] => "" | _ => (" " ++ String.concat " " l)%string end.
Lemma concat_cons a l : String.concat " " (a :: l) = (a ++ tail_of l)%string.
Proof. destruct l; cbn [String.concat tail_of]; [rewrite app_nil_s|]; reflexivity. Qed.
Lemma tail_ends l : ends (tail_of l).
Proof. destruct l; [left|right; eexists]; reflexivity. Qed.
Lemma extract_word {A} (scan : string -> bool * A * string) w a ws x : word scan w a ->
  extract scan (Some (tail_of (w :: ws))) x = (Some (tail_of ws), Some a).
Proof.
  intros ((c & w' & -> & NS) & _ & SC). unfold tail_of at 1. rewrite concat_cons. cbn [extract append skip_space is_space].
  change (is_space " ") with true. cbn [skip_space append]. rewrite NS. change (String c (w' ++ tail_of ws)%string) with (String c w' ++ tail_of ws)%string.
  rewrite SC by apply tail_ends. reflexivity.
Qed.
Fixpoint set_all (e : Env S) (xs : list string) (v : list S) : Env S :=
  match xs, v with x :: xs, a :: v => set_all (env_set e x (Some a)) xs v | _, _ => e end.
Lemma extract_words ws v : Forall2 (word (g_scanD G)) ws v -> forall e xs, List.length xs = List.length v ->
  exists st, extract_all G (Some (tail_of ws)) e xs = (st, set_all e xs v).
Proof.
  induction 1 as [|w a ws v W _ IH]; intros e xs L; destruct xs as [|x xs]; try discriminate; cbn [extract_all set_all]; [eauto|].
  rewrite (extract_word _ _ _ _ _ W). apply IH. injection L as L. exact L.
Qed.
Lemma to_double_small n : (n < 9007199254740992)%N -> to_double n = n.
Proof. intros L. unfold to_double. apply N.ltb_lt in L. rewrite L. reflexivity. Qed.

Lemma edge_item t ws v wi wj i j s : word (g_scanU G) wi i -> word (g_scanU G) wj j -> Forall2 (word (g_scanD G)) ws v ->
  List.length (vars_of t) = List.length v -> forall m, mk_of t i j (set_all (g_env s) (vars_of t) v) = Ok m -> (mp m < two64)%N ->
  exists e n', g2o_edge G t (Some (tail_of (wi :: wj :: ws))) (vars_of t) (mk_of t) s = Ok (mkG t (Some i) (Some j) e n' (g_out s ++ [m])) /\ n' = N.max (g_n s) (mp m).
Proof.
  intros WI WJ WS LV m Em Lm. unfold g2o_edge. rewrite (extract_word _ _ _ _ _ WI), (extract_word _ _ _ _ _ WJ).
  destruct (extract_words _ _ WS (g_env s) _ LV) as (st & ->). cbn [rd bind]. rewrite Em. cbn [bind].
  destruct (mk_basic _ _ _ _ _ Em) as (_ & P1 & P2). unfold max_pair. rewrite <- P1, <- P2. fold (mp m). apply N.ltb_lt in Lm. rewrite Lm. cbn [require bind].
  eexists. eexists. split; [reflexivity|]. destruct (N.ltb_spec (g_n s) (mp m)); lia.
Qed.

Lemma fixed_iff i j : small_pose i -> (u64 (i + 1) =? j)%N = true <-> (j = i + 1)%N.
Proof. unfold small_pose, u64, two64. intros L. rewrite N.mod_small by lia. rewrite N.eqb_eq. split; intros; lia. Qed.

Lemma item_step it l s : item_line G it l -> Forall small_pose (item_ids it) ->
  exists s', g2o_line G s l = Ok s' /\ g_n s' = fold_left N.max (item_ids it) (g_n s) /\
    match it with
    | IVertex => g_out s' = g_out s
    | IEdge2 i j v => exists m, g_out s' = g_out s ++ [m] /\ meas2_of G i j v m
    | IEdge3 i j v => exists m, g_out s' = g_out s ++ [m] /\ meas3_of i j v m
    end.
Proof.
  intros IL SM. destruct IL as [l V NLl|i j v wi wj ws WI WJ WS LV|i j v wi wj ws WI WJ WS LV]; rewrite line_unfold.
  - assert (T : tag_of (g_token s) l = tag_of "" l). { unfold tag_of in *. destruct (skip_space l); [discriminate|reflexivity]. }
    rewrite T. assert (NE : is_edge (tag_of "" l) = false).
    { unfold is_edge, is_vertex in *. destruct (String.eqb_spec (tag_of "" l) "EDGE_SE2") as [EQ|]; [rewrite EQ in V; discriminate|].
      destruct (String.eqb_spec (tag_of "" l) "EDGE_SE3:QUAT") as [EQ|]; [rewrite EQ in V; discriminate|]. reflexivity. }
    rewrite NE, V. eexists. split; [reflexivity|]. split; reflexivity.
  - rewrite concat_cons. change (tag_of (g_token s) ("EDGE_SE2" ++ tail_of (wi :: wj :: ws))%string) with "EDGE_SE2".
    change (after_tag ("EDGE_SE2" ++ tail_of (wi :: wj :: ws))%string) with (Some (tail_of (wi :: wj :: ws))).
    change (is_edge "EDGE_SE2") with true. cbv iota.
    inversion_clear SM as [|? ? S1 S2]. inversion_clear S2 as [|? ? S2' _].
    do 9 (destruct v as [|? v]; [discriminate LV|]). destruct v; [|discriminate LV].
    destruct (edge_item "EDGE_SE2" ws _ wi wj i j s WI WJ WS eq_refl _ eq_refl) as (e & n' & E & En).
    { unfold mp. cbn [mp1 mp2]. rewrite !to_double_small by assumption. unfold small_pose, two64 in *. lia. }
    rewrite E. eexists. split; [reflexivity|]. cbn [g_n g_out]. rewrite En. unfold mp. cbn [mp1 mp2 item_ids fold_left]. rewrite !to_double_small by assumption.
    split; [lia|]. eexists. split; [reflexivity|]. unfold meas2_of. cbn [mr1 mr2 mp1 mp2 mweight mfixed mR mt mkappa mtau].
    repeat (split; [reflexivity|]). split; [apply fixed_iff; auto|]. repeat split; reflexivity.
  - rewrite concat_cons. change (tag_of (g_token s) ("EDGE_SE3:QUAT" ++ tail_of (wi :: wj :: ws))%string) with "EDGE_SE3:QUAT".
    change (after_tag ("EDGE_SE3:QUAT" ++ tail_of (wi :: wj :: ws))%string) with (Some (tail_of (wi :: wj :: ws))).
    change (is_edge "EDGE_SE3:QUAT") with true. cbv iota.
    inversion_clear SM as [|? ? S1 S2]. inversion_clear S2 as [|? ? S2' _].
    do 28 (destruct v as [|? v]; [discriminate LV|]). destruct v; [|discriminate LV].
    destruct (edge_item "EDGE_SE3:QUAT" ws _ wi wj i j s WI WJ WS eq_refl _ eq_refl) as (e & n' & E & En).
    { unfold mp. cbn [mp1 mp2]. rewrite !to_double_small by assumption. unfold small_pose, two64 in *. lia. }
    rewrite E. eexists. split; [reflexivity|]. cbn [g_n g_out]. rewrite En. unfold mp. cbn [mp1 mp2 item_ids fold_left]. rewrite !to_double_small by assumption.
    split; [lia|]. eexists. split; [reflexivity|]. unfold meas3_of. cbn [mr1 mr2 mp1 mp2 mweight mfixed mR mt mkappa mtau].
    repeat (split; [reflexivity|]). split; [apply fixed_iff; auto|]. repeat split; reflexivity.
Qed.

Lemma items_run its ls : Forall2 (item_line G) its ls -> Forall small_pose (flat_map item_ids its) -> forall s,
  exists s' ms, foldM (g2o_line G) s ls = Ok s' /\ g_out s' = g_out s ++ ms /\ items_meas G its ms /\ g_n s' = fold_left N.max (flat_map item_ids its) (g_n s).
Proof.
  induction 1 as [|it l its ls IL _ IH]; intros SM s.
  - exists s, []. rewrite app_nil_r. cbn. repeat split; auto. constructor.
  - cbn [flat_map] in SM. apply Forall_app in SM. destruct SM as [S1 S2]. destruct (item_step it l s IL S1) as (s1 & E1 & N1 & O1).
    destruct (IH S2 s1) as (s' & ms & E & O & IM & NN). cbn [foldM]. rewrite E1. cbn [bind].
    assert (NF : g_n s' = fold_left N.max (flat_map item_ids (it :: its)) (g_n s)). { cbn [flat_map]. rewrite fold_left_app, <- N1. exact NN. }
    destruct it as [|i j v|i j v].
    + exists s', ms. rewrite <- O1. split; auto. split; auto. split; auto. constructor; auto.
    + destruct O1 as (m & O1 & M). exists s', (m :: ms). split; auto. split; [rewrite O, O1, <- app_assoc; reflexivity|]. split; auto. constructor; auto.
    + destruct O1 as (m & O1 & M). exists s', (m :: ms). split; auto. split; [rewrite O, O1, <- app_assoc; reflexivity|]. split; auto. constructor; auto.
Qed.
Lemma fold_max_le l : forall a, (a <= fold_left N.max l a)%N /\ (forall x, In x l -> x <= fold_left N.max l a)%N /\
  (fold_left N.max l a = a \/ In (fold_left N.max l a) l).
Proof.
  induction l as [|y l IH]; intros a; cbn [fold_left]; [repeat split; auto; [lia|contradiction]|].
  destruct (IH (N.max a y)) as (A & B & C). split; [lia|]. split; [intros x [->|I]; [lia|auto]|].
  destruct C as [C|C]; [|right; right; auto]. destruct (N.max_spec a y) as [[_ M]|[_ M]]; rewrite M in *; [right; left; auto|left; auto].
Qed.

Theorem g2o_wellformed : forall fs f c its, fs f = Some c -> Forall2 (item_line G) its (lines c) -> Forall small_pose (flat_map item_ids its) ->
  exists ms n, read_g2o G fs f = Ok (ms, (n + 1)%N) /\ items_meas G its ms /\
    (forall i, In i (flat_map item_ids its) -> (i <= n)%N) /\ (n = 0%N \/ In n (flat_map item_ids its)).
Proof.
  intros fs f c its E IL SM. rewrite (read_run _ _ _ E). destruct (items_run _ _ IL SM start) as (s & ms & ES & O & IM & NN).
  rewrite ES. cbn [bind]. cbn [start g_out app g_n] in O, NN. destruct (fold_max_le (flat_map item_ids its) 0) as (_ & A & B).
  exists ms, (g_n s). rewrite O. rewrite NN. split; [|auto]. f_equal. f_equal. unfold u64, two64. apply N.mod_small.
  assert (L : small_pose (fold_left N.max (flat_map item_ids its) 0%N)).
  { destruct B as [->|B]; [unfold small_pose; lia|]. rewrite Forall_forall in SM. auto. }
  unfold small_pose in L. lia.
Qed.
End P.

(** ** Precisions over the reals *)
Local Open Scope R_scope.
Lemma pd2_minors a b c : pd2 a b c -> 0 < a /\ 0 < c /\ 0 < a * c - b * b.
Proof.
  intros P. pose proof (P 1 0 ltac:(left; lra)) as A. pose proof (P 0 1 ltac:(right; lra)) as C. ring_simplify in A. ring_simplify in C.
  split; [lra|]. split; [lra|]. pose proof (P (- b) a ltac:(right; lra)) as D. 
  assert (D' : 0 < a * (a * c - b * b)) by (eapply Rlt_le_trans; [exact D|right; ring]).
  destruct (Rlt_dec 0 (a * c - b * b)) as [|N]; auto. exfalso. assert (a * (a * c - b * b) <= a * 0) by (apply Rmult_le_compat_l; lra). lra.
Qed.
Theorem tau2_positive a b c : pd2 a b c -> 0 < 2 / tr_inv2 a b c.
Proof.
  intros P. destruct (pd2_minors _ _ _ P) as (A & C & D). unfold tr_inv2. cbn [n1 nadd nsub nmul ndiv NumR].
  apply Rdiv_lt_0_compat; [lra|]. replace (c * (1 / (a * c - b * b)) + a * (1 / (a * c - b * b))) with ((a + c) / (a * c - b * b)) by (field; lra).
  apply Rdiv_lt_0_compat; lra.
Qed.
Theorem tau3_positive a b c d e f : pd3 a b c d e f -> 0 < 3 / tr_inv3 a b c d e f.
Proof.
  intros P.
  assert (M1 : pd2 a b d). { intros x y N. pose proof (P x y 0 ltac:(tauto)) as Q. eapply Rlt_le_trans; [exact Q|right; ring]. }
  assert (M2 : pd2 a c f). { intros x z N. pose proof (P x 0 z ltac:(tauto)) as Q. eapply Rlt_le_trans; [exact Q|right; ring]. }
  assert (M3 : pd2 d e f). { intros y z N. pose proof (P 0 y z ltac:(tauto)) as Q. eapply Rlt_le_trans; [exact Q|right; ring]. }
  destruct (pd2_minors _ _ _ M1) as (_ & _ & D1). destruct (pd2_minors _ _ _ M2) as (_ & _ & D2). destruct (pd2_minors _ _ _ M3) as (_ & _ & D3).
  unfold tr_inv3. cbn [n1 nadd nsub nmul ndiv NumR]. set (c0 := d * f - e * e) in *. set (c1 := e * c - b * f). set (c2 := b * e - d * c).
  assert (DP : 0 < c0 * a + c1 * b + c2 * c).
  { pose proof (P c0 c1 c2 ltac:(left; lra)) as Q. assert (Q' : 0 < c0 * (c0 * a + c1 * b + c2 * c)).
    { eapply Rlt_le_trans; [exact Q|right]. unfold c0, c1, c2. ring. }
    destruct (Rlt_dec 0 (c0 * a + c1 * b + c2 * c)) as [|N]; auto. exfalso.
    assert (c0 * (c0 * a + c1 * b + c2 * c) <= c0 * 0) by (apply Rmult_le_compat_l; lra). lra. }
  apply Rdiv_lt_0_compat; [lra|]. set (det := c0 * a + c1 * b + c2 * c) in *.
  replace (c0 * (1 / det) + (a * f - c * c) * (1 / det) + (a * d - b * b) * (1 / det)) with ((c0 + (a * f - c * c) + (a * d - b * b)) / det) by (field; lra).
  apply Rdiv_lt_0_compat; lra.
Qed.
Theorem kappa3_positive a b c d e f : pd3 a b c d e f -> 0 < 3 / (2 * tr_inv3 a b c d e f).
Proof.
  intros P. pose proof (tau3_positive _ _ _ _ _ _ P) as T. assert (tr_inv3 a b c d e f <> 0).
  { intros E. rewrite E in T. unfold Rdiv in T. rewrite Rinv_0 in T. lra. }
  replace (3 / (2 * tr_inv3 a b c d e f)) with (3 / tr_inv3 a b c d e f / 2) by (field; auto). lra.
Qed.
Theorem isotropic_precision s : 0 < s -> 2 / tr_inv2 s 0 s = s /\ 3 / tr_inv3 s 0 0 s 0 s = s /\ 3 / (2 * tr_inv3 s 0 0 s 0 s) = s / 2.
Proof.
  intros P. assert (E2 : tr_inv2 s 0 s = 2 / s).
  { unfold tr_inv2. cbn [n1 nadd nsub nmul ndiv NumR]. replace (s * s - 0 * 0) with (s * s) by ring. field. lra. }
  assert (E3 : tr_inv3 s 0 0 s 0 s = 3 / s).
  { unfold tr_inv3. cbn [n1 nadd nsub nmul ndiv NumR]. replace ((s * s - 0 * 0) * s + (0 * 0 - 0 * s) * 0 + (0 * 0 - s * 0) * 0) with (s * s * s) by ring. field. lra. }
  rewrite E2, E3. repeat split; field; lra.
Qed.

(** The trace of the inverse *)
Theorem tr_inv2_spec a b c : a * c - b * b <> 0 -> exists p q r, inverse 2 (sym2 a b c) (sym2 p q r) /\ tr_inv2 a b c = p + r.
Proof.
  intros D. exists (c / (a * c - b * b)), (- b / (a * c - b * b)), (a / (a * c - b * b)). split.
  - intros i j Hi Hj. destruct i as [|[|i]]; [| |lia]; (destruct j as [|[|j]]; [| |lia]); cbn; field; exact D.
  - unfold tr_inv2. cbn. field. exact D.
Qed.
Definition det3 (a b c d e f : R) : R := a * (d * f - e * e) - b * (b * f - c * e) + c * (b * e - c * d).
Theorem tr_inv3_spec a b c d e f : a * (d * f - e * e) - b * (b * f - c * e) + c * (b * e - c * d) <> 0 ->
  exists p q r s t u, inverse 3 (sym3 a b c d e f) (sym3 p q r s t u) /\ tr_inv3 a b c d e f = p + s + u.
Proof.
  fold (det3 a b c d e f). intros D. exists ((d * f - e * e) / det3 a b c d e f), ((e * c - b * f) / det3 a b c d e f), ((b * e - d * c) / det3 a b c d e f),
    ((a * f - c * c) / det3 a b c d e f), ((b * c - a * e) / det3 a b c d e f), ((a * d - b * b) / det3 a b c d e f). split.
  - intros i j Hi Hj. destruct i as [|[|[|i]]]; [| | |lia]; (destruct j as [|[|[|j]]]; [| | |lia]); cbn; unfold det3 in *; field; exact D.
  - unfold tr_inv3. cbn. replace ((d * f - e * e) * a + (e * c - b * f) * b + (b * e - d * c) * c) with (det3 a b c d e f) by (unfold det3; ring). field. exact D.
Qed.
