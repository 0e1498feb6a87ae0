(** C93: CamelCase names and underscore_case names. *)
From Coq Require Import String Ascii List Bool Arith Lia.
From Verif Require Import MConvert SpecConvert.
Import ListNotations.
Open Scope list_scope.

(** ** characters *)
Lemma all_ascii (P : ascii -> bool) : forallb P (map ascii_of_nat (seq 0 256)) = true -> forall c, P c = true.
Proof.
  intros H c. rewrite forallb_forall in H. apply H. apply in_map_iff. exists (nat_of_ascii c). split; [apply ascii_nat_embedding|]. apply in_seq. pose proof (nat_ascii_bounded c). lia.
Qed.
Definition mem (c : ascii) (l : list ascii) : bool := existsb (Ascii.eqb c) l.
Lemma mem_in c l : mem c l = true <-> In c l.
Proof. unfold mem. rewrite existsb_exists. split; [intros (x & H & E); apply Ascii.eqb_eq in E; subst; exact H|intros H; exists c; split; [exact H|apply Ascii.eqb_refl]]. Qed.
Lemma upper_capital c : upper c = true <-> In c capitals.
Proof. rewrite <- mem_in. assert (E : Bool.eqb (upper c) (mem c capitals) = true) by (revert c; apply all_ascii; vm_compute; reflexivity). apply eqb_prop in E. rewrite E. reflexivity. Qed.
Lemma lower_small c : lower c = true <-> In c smalls.
Proof. rewrite <- mem_in. assert (E : Bool.eqb (lower c) (mem c smalls) = true) by (revert c; apply all_ascii; vm_compute; reflexivity). apply eqb_prop in E. rewrite E. reflexivity. Qed.
Lemma to_lower_upper c : upper (to_lower c) = false.
Proof. apply negb_true_iff. revert c. apply all_ascii. vm_compute. reflexivity. Qed.
Lemma to_lower_small c : written_small c (to_lower c).
Proof.
  destruct (upper c) eqn:U.
  - left. unfold small_of.
    assert (E : (negb (upper c) || existsb (fun i => match nth_error capitals i, nth_error smalls i with Some u, Some x => (Ascii.eqb u c && Ascii.eqb x (to_lower c))%bool | _, _ => false end) (seq 0 26))%bool = true)
      by (clear U; revert c; apply all_ascii; vm_compute; reflexivity).
    rewrite U in E. cbn [negb orb] in E. apply existsb_exists in E as (i & _ & E). exists i. destruct (nth_error capitals i), (nth_error smalls i); try discriminate.
    apply andb_true_iff in E as (E1 & E2). apply Ascii.eqb_eq in E1, E2. subst. auto.
  - right. split; [intros H; apply upper_capital in H; congruence|]. unfold to_lower. rewrite U. reflexivity.
Qed.
Lemma to_lower_id c : upper c = false -> to_lower c = c.
Proof. unfold to_lower. intros ->. reflexivity. Qed.
Lemma lower_not_upper c : lower c = true -> upper c = false.
Proof.
  intros H. assert (E : (negb (lower c) || negb (upper c))%bool = true) by (clear H; revert c; apply all_ascii; vm_compute; reflexivity). rewrite H in E. cbn in E. apply negb_true_iff. exact E.
Qed.
Lemma upper_facts c : upper c = true -> lower c = false /\ digit c = false /\ Ascii.eqb c newline = false.
Proof.
  intros H. assert (E : (negb (upper c) || (negb (lower c) && negb (digit c) && negb (Ascii.eqb c newline)))%bool = true) by (clear H; revert c; apply all_ascii; vm_compute; reflexivity).
  rewrite H in E. cbn in E. rewrite !andb_true_iff, !negb_true_iff in E. tauto.
Qed.
Lemma lower_newline c : lower c = true -> Ascii.eqb c newline = false.
Proof.
  intros H. assert (E : (negb (lower c) || negb (Ascii.eqb c newline))%bool = true) by (clear H; revert c; apply all_ascii; vm_compute; reflexivity). rewrite H in E. cbn in E. apply negb_true_iff. exact E.
Qed.

(** ** underscores are all that is put in *)
Inductive grown : list ascii -> list ascii -> Prop :=
| g_nil : grown [] []
| g_char c a b : grown a b -> grown (c :: a) (c :: b)
| g_under a b : grown a b -> grown a ("_"%char :: b).
Lemma words_grown l : forall m, grown l (sub_words m l).
Proof.
  induction l as [|c l IH]; intros m; [constructor|]. cbn [sub_words].
  assert (F : grown (c :: l) (if (negb (Ascii.eqb c newline) && word_next l)%bool then c :: "_"%char :: sub_words Head l else c :: sub_words Free l)) by (destruct (_ && _)%bool; repeat constructor; apply IH).
  destruct m; [exact F|constructor; apply IH|]. destruct (lower c); [constructor; apply IH|exact F].
Qed.
Lemma capitals_grown l : forall m, grown l (sub_capitals m l).
Proof. induction l as [|c l IH]; intros m; [constructor|]. cbn [sub_capitals]. destruct m; [constructor; apply IH|]. destruct (_ && _)%bool; repeat constructor; apply IH. Qed.
Lemma grown_trans b c : grown b c -> forall a, grown a b -> grown a c.
Proof.
  induction 1 as [|x b c H IH|b c H IH]; intros a G; [exact G| |constructor; apply IH; exact G].
  inversion G; subst; constructor; apply IH; assumption.
Qed.
Lemma grown_inserted a b : grown a b -> inserted a (map to_lower b).
Proof. induction 1; cbn [map]; [constructor|constructor; [apply to_lower_small|assumption]|]. change (to_lower "_") with "_"%char. constructor. assumption. Qed.
(** The result is the name written small with underscores put between its characters, nothing else. *)
Theorem C93_only_underscores name : inserted (list_ascii_of_string name) (list_ascii_of_string (convert name)).
Proof.
  unfold convert. rewrite list_ascii_of_string_of_list_ascii. apply grown_inserted. eapply grown_trans; [apply capitals_grown|apply words_grown].
Qed.
(** No capitals are left. *)
Theorem C93_no_capitals name c : In c (list_ascii_of_string (convert name)) -> ~ In c capitals.
Proof.
  unfold convert. rewrite list_ascii_of_string_of_list_ascii. intros H U. apply in_map_iff in H as (x & <- & _). apply upper_capital in U. rewrite to_lower_upper in U. discriminate.
Qed.
(** A name without capitals stays as it is; converting twice is converting once. *)
Lemma same_words l : (forall c, In c l -> upper c = false) -> forall m, sub_words m l = l.
Proof.
  induction l as [|c l IH]; intros H m; [reflexivity|]. cbn [sub_words].
  assert (W : word_next l = false) by (destruct l as [|u [|x l]]; try reflexivity; cbn; rewrite (H u) by (right; left; reflexivity); reflexivity).
  rewrite W, andb_false_r. rewrite !IH by (intros d Hd; apply H; right; exact Hd). destruct m, (lower c); reflexivity.
Qed.
Lemma same_capitals l : (forall c, In c l -> upper c = false) -> forall m, sub_capitals m l = l.
Proof.
  induction l as [|c l IH]; intros H m; [reflexivity|]. cbn [sub_capitals].
  assert (W : capital_next l = false) by (destruct l as [|u l]; [reflexivity|]; cbn; apply H; right; left; reflexivity).
  rewrite W, andb_false_r. rewrite !IH by (intros d Hd; apply H; right; exact Hd). destruct m; reflexivity.
Qed.
Theorem C93_small_unchanged name : (forall c, In c (list_ascii_of_string name) -> ~ In c capitals) -> convert name = name.
Proof.
  intros H. assert (H' : forall c, In c (list_ascii_of_string name) -> upper c = false) by (intros c Hc; destruct (upper c) eqn:E; [exfalso; apply (H c Hc), upper_capital, E|reflexivity]).
  unfold convert, convert_chars. rewrite same_words, same_capitals by (rewrite ?same_words; assumption).
  rewrite (map_ext_in _ (fun c => c)) by (intros c Hc; apply to_lower_id, H', Hc). rewrite map_id. apply string_of_list_ascii_of_string.
Qed.
Theorem C93_idempotent name : convert (convert name) = convert name.
Proof. apply C93_small_unchanged. apply C93_no_capitals. Qed.

(** ** words *)
Lemma word_bool w : word w -> exists u x r, w = u :: x :: r /\ upper u = true /\ forallb lower (x :: r) = true.
Proof.
  intros (u & x & r & -> & U & L). exists u, x, r. split; [reflexivity|]. split; [apply upper_capital, U|]. apply forallb_forall. intros c Hc. rewrite Forall_forall in L. apply lower_small, L, Hc.
Qed.
(** boundaries between words, with or without an underscore *)
Inductive glued : list (list ascii) -> list ascii -> Prop :=
| gl_nil : glued [] []
| gl_plain w ws l : glued ws l -> glued (w :: ws) (w ++ l)
| gl_under w ws l : glued ws l -> glued (w :: ws) ("_"%char :: w ++ l).
Lemma word_next_words w ws : word w -> word_next (w ++ concat ws) = true.
Proof. intros W. destruct (word_bool w W) as (u & x & r & -> & U & L). cbn in *. apply andb_true_iff in L as (L & _). rewrite U, L. reflexivity. Qed.
Lemma word_next_lower c l r : lower c = true -> word_next (c :: l ++ r) = false.
Proof. intros H. cbn. destruct (l ++ r); [reflexivity|]. rewrite (lower_not_upper _ H). reflexivity. Qed.
Lemma scan_words ws : Forall word ws ->
  (exists g, sub_words Tail (concat ws) = g /\ glued ws g) /\ (exists g, sub_words Free (concat ws) = g /\ glued ws g) /\ (exists g, sub_words Head (concat ws) = g /\ glued ws g) /\
  forall r, r <> [] -> forallb lower r = true -> (exists g, sub_words Free (r ++ concat ws) = r ++ g /\ glued ws g) /\ (exists g, sub_words Tail (r ++ concat ws) = r ++ g /\ glued ws g).
Proof.
  induction 1 as [|w ws W Ws (IT & IF & IH & IR)].
  - assert (N : exists g : list ascii, [] = g /\ glued [] g) by (exists []; split; [reflexivity|constructor]).
    split; [exact N|]. split; [exact N|]. split; [exact N|]. intros r _ L. rewrite forallb_forall in L.
    assert (U : forall c, In c r -> upper c = false) by (intros c Hc; apply lower_not_upper, L, Hc).
    split; exists []; (split; [|constructor]); cbn [concat]; rewrite app_nil_r; apply same_words, U.
  - destruct (word_bool w W) as (u & x & r & Ew & U & L). destruct (upper_facts u U) as (Ul & Ud & Un). destruct (IR (x :: r) ltac:(discriminate) L) as ((gF & RF & GF) & (gT & RT & GT)).
    assert (Nx : forall k, word_next ((x :: r) ++ k) = false) by (intros k; cbn [app]; apply (word_next_lower x r k); cbn in L; apply andb_true_iff in L as (L & _); exact L).
    assert (EF : sub_words Free (concat (w :: ws)) = w ++ gF).
    { cbn [concat]. rewrite Ew. change ((u :: x :: r) ++ concat ws) with (u :: ((x :: r) ++ concat ws)). cbn [sub_words]. rewrite Nx, andb_false_r, RF. reflexivity. }
    assert (ET : sub_words Tail (concat (w :: ws)) = w ++ gF).
    { cbn [concat]. rewrite Ew. change ((u :: x :: r) ++ concat ws) with (u :: ((x :: r) ++ concat ws)). cbn [sub_words]. rewrite Ul, Nx, andb_false_r, RF. reflexivity. }
    assert (EH : sub_words Head (concat (w :: ws)) = w ++ gT).
    { cbn [concat]. rewrite Ew. change ((u :: x :: r) ++ concat ws) with (u :: ((x :: r) ++ concat ws)). cbn [sub_words]. rewrite RT. reflexivity. }
    split; [exists (w ++ gF); split; [exact ET|constructor; exact GF]|]. split; [exists (w ++ gF); split; [exact EF|constructor; exact GF]|]. split; [exists (w ++ gT); split; [exact EH|constructor; exact GT]|].
    intros s Ns Ls. split.
    + (* the last letter of s meets the next word *)
      exists ("_"%char :: w ++ gT). split; [|constructor; exact GT]. revert Ns Ls. induction s as [|c s IHs]; [congruence|]. intros _ Ls. cbn [forallb] in Ls. apply andb_true_iff in Ls as (Lc & Ls).
      destruct s as [|c' s].
      * cbn [app]. cbn [sub_words]. rewrite (lower_newline c Lc). cbn [concat] in *. rewrite (word_next_words w ws W). cbn [negb andb]. rewrite EH. reflexivity.
      * change ((c :: c' :: s) ++ concat (w :: ws)) with (c :: ((c' :: s) ++ concat (w :: ws))). cbn [sub_words].
        assert (N : word_next ((c' :: s) ++ concat (w :: ws)) = false) by (apply (word_next_lower c' s); cbn in Ls; apply andb_true_iff in Ls as (Ls & _); exact Ls).
        rewrite N, andb_false_r. rewrite IHs; [reflexivity|discriminate|exact Ls].
    + exists (w ++ gF). split; [|constructor; exact GF]. clear Ns. induction s as [|c s IHs]; [exact ET|]. cbn [forallb] in Ls. apply andb_true_iff in Ls as (Lc & Ls).
      change ((c :: s) ++ concat (w :: ws)) with (c :: (s ++ concat (w :: ws))). cbn [sub_words]. rewrite Lc, IHs by exact Ls. reflexivity.
Qed.
(** the second pass puts in the underscores the first one missed *)
Lemma pass_lower s l : forallb lower s = true -> forall y, lower y = true -> capital_next l = false -> sub_capitals false (y :: s ++ l) = y :: s ++ sub_capitals false l.
Proof.
  induction s as [|c s IH]; intros L y Hy N.
  - cbn [app sub_capitals]. rewrite N, andb_false_r. reflexivity.
  - cbn [forallb] in L. apply andb_true_iff in L as (Lc & L). change (y :: (c :: s) ++ l) with (y :: c :: s ++ l).
    assert (E : sub_capitals false (y :: c :: s ++ l) = y :: sub_capitals false (c :: s ++ l)).
    { cbn [sub_capitals capital_next]. rewrite (lower_not_upper _ Lc), andb_false_r. reflexivity. }
    rewrite E, IH by assumption. reflexivity.
Qed.
Lemma pass_lower_capital s l : forallb lower s = true -> forall y, lower y = true -> capital_next l = true -> sub_capitals false (y :: s ++ l) = y :: s ++ "_"%char :: sub_capitals true l.
Proof.
  induction s as [|c s IH]; intros L y Hy N.
  - cbn [app sub_capitals]. rewrite N, Hy. reflexivity.
  - cbn [forallb] in L. apply andb_true_iff in L as (Lc & L). change (y :: (c :: s) ++ l) with (y :: c :: s ++ l).
    assert (E : sub_capitals false (y :: c :: s ++ l) = y :: sub_capitals false (c :: s ++ l)).
    { cbn [sub_capitals capital_next]. rewrite (lower_not_upper _ Lc), andb_false_r. reflexivity. }
    rewrite E, IH by assumption. reflexivity.
Qed.
Lemma capitals_joined ws : Forall word ws -> forall w g m, word w -> glued ws g -> sub_capitals m (w ++ g) = joined (w :: ws).
Proof.
  induction 1 as [|v ws V Vs IH]; intros w g m W G; destruct (word_bool w W) as (u & x & r & -> & U & L); destruct (upper_facts u U) as (Ul & Ud & _); cbn [forallb] in L; apply andb_true_iff in L as (Lx & Lr).
  - inversion G; subst. rewrite app_nil_r. cbn [joined].
    assert (E : sub_capitals m (u :: x :: r) = u :: sub_capitals false (x :: r)) by (cbn [sub_capitals capital_next]; rewrite Ul, Ud; destruct m; reflexivity).
    rewrite E. pose proof (pass_lower r [] Lr x Lx eq_refl) as P. rewrite app_nil_r in P. rewrite P. cbn. rewrite app_nil_r. reflexivity.
  - assert (E : forall k, sub_capitals m ((u :: x :: r) ++ k) = u :: sub_capitals false (x :: r ++ k)).
    { intros k. cbn [app]. cbn [sub_capitals capital_next]. rewrite Ul, Ud. destruct m; reflexivity. }
    rewrite E. change (joined ((u :: x :: r) :: v :: ws)) with ((u :: x :: r) ++ "_"%char :: joined (v :: ws)). inversion G as [|? ? g' G'|? ? g' G']; subst.
    + rewrite pass_lower_capital; [|exact Lr|exact Lx|destruct (word_bool v V) as (u' & x' & r' & -> & U' & _); exact U']. rewrite (IH v g' true V G'). reflexivity.
    + rewrite pass_lower; [|exact Lr|exact Lx|reflexivity].
      assert (E2 : sub_capitals false ("_"%char :: v ++ g') = "_"%char :: sub_capitals false (v ++ g')) by reflexivity.
      rewrite E2, (IH v g' false V G'). reflexivity.
Qed.
Lemma map_joined f ws : f "_"%char = "_"%char -> map f (joined ws) = joined (map (map f) ws).
Proof.
  intros H. induction ws as [|w ws IH]; [reflexivity|]. destruct ws as [|v ws]; [reflexivity|].
  change (joined (w :: v :: ws)) with (w ++ "_"%char :: joined (v :: ws)). rewrite map_app. cbn [map] in IH |- *. rewrite IH, H. reflexivity.
Qed.
Lemma small_words ws : Forall2 small_word ws (map (map to_lower) ws).
Proof. induction ws as [|w ws IH]; constructor; [|exact IH]. unfold small_word. induction w; constructor; [apply to_lower_small|assumption]. Qed.
(** A name made of words, each a capital and small letters, becomes the words in small letters joined by underscores. *)
Theorem C93_words name ws : Forall word ws -> list_ascii_of_string name = concat ws ->
  exists vs, Forall2 small_word ws vs /\ list_ascii_of_string (convert name) = joined vs.
Proof.
  intros W E. exists (map (map to_lower) ws). split.
  - apply small_words.
  - unfold convert. rewrite list_ascii_of_string_of_list_ascii, E. unfold convert_chars. rewrite <- map_joined by reflexivity. f_equal.
    destruct W as [|w ws W Ws]; [reflexivity|]. destruct (scan_words (w :: ws) (Forall_cons _ W Ws)) as (_ & (g & Eg & G) & _). rewrite Eg.
    inversion G as [|? ? g' G' E1 E2|? ? g' G' E1 E2].
    + apply capitals_joined; assumption.
    + exfalso. rewrite <- E2 in Eg. destruct (word_bool w W) as (u & x & r & -> & U & L). cbn [concat app] in Eg.
      assert (N : word_next (x :: r ++ concat ws) = false) by (apply (word_next_lower x r); cbn in L; apply andb_true_iff in L as (L & _); exact L).
      cbn [sub_words] in Eg. rewrite N, andb_false_r in Eg. injection Eg as Eg _. subst u. vm_compute in U. discriminate.
Qed.
(** Several capitals before a word are taken as one word. *)
Lemma acronym_scan us w : us <> [] -> forallb upper us = true -> word w -> sub_words Free (us ++ w) = us ++ "_"%char :: w.
Proof.
  intros N U W. destruct (word_bool w W) as (h & x & r & Ew & Uh & L).
  assert (EH : sub_words Head w = w).
  { rewrite Ew. change (sub_words Head (h :: x :: r)) with (h :: sub_words Tail (x :: r)). f_equal. revert L. generalize (x :: r). intros l. induction l as [|c l IH]; [reflexivity|].
    cbn [forallb]. intros L. apply andb_true_iff in L as (Lc & L). cbn [sub_words]. rewrite Lc, IH by exact L. reflexivity. }
  revert N U. induction us as [|u us IH]; [congruence|]. intros _ U. cbn [forallb] in U. apply andb_true_iff in U as (Uu & U). destruct (upper_facts u Uu) as (_ & _ & Un).
  destruct us as [|v us].
  - cbn [app sub_words]. rewrite Un. pose proof (word_next_words w [] W) as E. cbn [concat] in E. rewrite app_nil_r in E. rewrite E. cbn [negb andb]. rewrite EH. reflexivity.
  - change ((u :: v :: us) ++ w) with (u :: ((v :: us) ++ w)). cbn [sub_words].
    assert (E : word_next ((v :: us) ++ w) = false).
    { destruct us as [|v' us]; [rewrite Ew; cbn; destruct (upper_facts h Uh) as (-> & _); apply andb_false_r|]. cbn. cbn in U. rewrite !andb_true_iff in U. destruct (upper_facts v' (proj1 (proj2 U))) as (-> & _). apply andb_false_r. }
    rewrite E, andb_false_r, IH; [reflexivity|discriminate|exact U].
Qed.
Theorem C93_acronym name us w : us <> [] -> Forall (fun u => In u capitals) us -> word w -> list_ascii_of_string name = us ++ w ->
  exists vs v, small_word us vs /\ small_word w v /\ list_ascii_of_string (convert name) = vs ++ "_"%char :: v.
Proof.
  intros N U W E. assert (U' : forallb upper us = true) by (apply forallb_forall; intros u Hu; rewrite Forall_forall in U; apply upper_capital, U, Hu).
  exists (map to_lower us), (map to_lower w). pose proof (small_words [us; w]) as S. inversion S as [|? ? ? ? S1 S2]; subst. inversion S2; subst. split; [exact S1|]. split; [assumption|].
  unfold convert. rewrite list_ascii_of_string_of_list_ascii, E. unfold convert_chars. rewrite acronym_scan by assumption.
  assert (C : sub_capitals false (us ++ "_"%char :: w) = us ++ "_"%char :: w).
  { clear N U E S S1 S2. induction us as [|u us IH].
    - cbn [app]. assert (E2 : sub_capitals false ("_"%char :: w) = "_"%char :: sub_capitals false w) by reflexivity. rewrite E2. f_equal.
      pose proof (capitals_joined [] (Forall_nil _) w [] false W gl_nil) as J. rewrite app_nil_r in J. exact J.
    - cbn [forallb] in U'. apply andb_true_iff in U' as (Uu & U'). destruct (upper_facts u Uu) as (Ul & Ud & _). cbn [app sub_capitals]. rewrite Ul, Ud. cbn [orb andb]. rewrite IH by assumption. reflexivity. }
  rewrite C, map_app. reflexivity.
Qed.
(** It is NOT true that different names stay different, or that words of one letter are kept apart. *)
Theorem C93_distinct_refuted : exists a b, a <> b /\ convert a = convert b /\ Forall (fun c => In c capitals \/ In c smalls) (list_ascii_of_string a ++ list_ascii_of_string b).
Proof. exists "CamelCase"%string, "camelCase"%string. split; [discriminate|]. split; [vm_compute; reflexivity|].
  apply Forall_forall. intros c Hc. rewrite <- !mem_in. apply orb_true_iff. revert c Hc. apply forallb_forall. vm_compute. reflexivity.
Qed.
Lemma is_word w : (match w with u :: x :: r => mem u capitals && forallb (fun c => mem c smalls) (x :: r) | _ => false end)%bool = true -> word w.
Proof.
  destruct w as [|u [|x r]]; try discriminate. intros H. apply andb_true_iff in H as (U & L). exists u, x, r. split; [reflexivity|]. split; [apply mem_in, U|].
  apply Forall_forall. intros c Hc. rewrite forallb_forall in L. apply mem_in, L, Hc.
Qed.
Theorem C93_letters_refuted : exists ws vs, Forall (fun w => word w \/ exists u, w = [u] /\ In u capitals) ws /\ Forall2 small_word ws vs /\
  list_ascii_of_string (convert (string_of_list_ascii (concat ws))) <> joined vs.
Proof.
  exists [["A"%char]; ["B"%char]; list_ascii_of_string "Test"]. eexists. split; [|split; [apply small_words|vm_compute; discriminate]].
  constructor; [right; exists "A"%char; split; [reflexivity|apply mem_in; reflexivity]|]. constructor; [right; exists "B"%char; split; [reflexivity|apply mem_in; reflexivity]|].
  constructor; [left; apply is_word; reflexivity|constructor].
Qed.

Example C93_instance : Forall word [list_ascii_of_string "Campbell"; list_ascii_of_string "Results"; list_ascii_of_string "Map"] /\
  convert "CampbellResultsMap" = "campbell_results_map"%string.
Proof. split; [|vm_compute; reflexivity]. constructor; [|constructor; [|constructor; [|constructor]]]; apply is_word; reflexivity. Qed.

Print Assumptions C93_words.
Print Assumptions C93_only_underscores.
Print Assumptions C93_idempotent.
