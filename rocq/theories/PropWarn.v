(** C90: the warning about extrapolated bearing coefficients. *)
From Coq Require Import Reals String List Bool Permutation Lra Lia.
From Coquelicot Require Import Complex.
From Verif Require Import PyBase MatBase CMat MBearing MRotor MDynamics MModal MUcs MWarn SpecBearing SpecDynamics SpecModal SpecTime SpecWarn LBearing LBearing2 LDynEx LDynamics LDynEx2 LModalEx LRotor LRotor6 LWarn.
Import ListNotations.
Open Scope list_scope.
Open Scope R_scope.

(** The warning is given exactly when some speed of the range is outside the table of some bearing or seal. *)
Theorem C90_warns_iff : forall la spl r speeds modes, speeds <> [] -> (forall e, In e (r_brg r) -> built e) ->
  exists warned, check_frequency_array speeds (r_brg r) = Ok warned /\
    (warned = true <-> exists e table w, In e (r_brg r) /\ has_table e table /\ In w speeds /\ ~ inside table w) /\
    freq_response_warning la spl r speeds modes = bind (run_freq_response la spl r speeds modes) (fun y => Ok (warned, y)).
Proof.
  intros la spl r speeds modes NE B. destruct (check_spec speeds (r_brg r) NE B) as (w & E & Iff). exists w. split; [exact E|]. split; [exact Iff|].
  unfold freq_response_warning. rewrite E. reflexivity.
Qed.

Lemma no_warning_reads spl spl' r speeds w : (forall e, In e (r_elements r) -> built e) -> (forall e t, In e (r_elements r) -> has_table e t -> In e (r_brg r)) ->
  same_inside spl spl' -> check_frequency_array speeds (r_brg r) = Ok false -> In w speeds -> forall e, In e (r_elements r) -> reads_same spl spl' w e.
Proof.
  intros B L S E Hw e He. assert (NE : speeds <> []) by (intros ->; exact Hw).
  destruct (check_spec speeds (r_brg r) NE) as (b & E' & Iff). { intros e' He'. apply B. unfold r_elements. rewrite !in_app_iff. auto. }
  rewrite E in E'. injection E' as <-. apply built_reads; [exact S|apply B; exact He|]. intros f T. pose proof (L e f He T) as Hb.
  apply has_table_iff in T as T'. destruct (extreme_max f (built_table _ _ (B _ He) T)) as (top & _ & It & Mt). destruct (extreme_min f (built_table _ _ (B _ He) T)) as (bot & _ & Ib & Mb).
  destruct (Rle_dec bot w) as [H1|H1]; [destruct (Rle_dec w top) as [H2|H2]; [exists bot, top; auto|]|].
  - exfalso. assert (X : false = true); [apply Iff|discriminate]. exists e, f, w. split; [exact Hb|]. split; [exact T|]. split; [exact Hw|]. intros (a & c & _ & Hc & _ & H). specialize (Mt _ Hc). lra.
  - exfalso. assert (X : false = true); [apply Iff|discriminate]. exists e, f, w. split; [exact Hb|]. split; [exact T|]. split; [exact Hw|]. intros (a & c & Ha & _ & H & _). specialize (Mb _ Ha). lra.
Qed.

(** Without a warning the frequency response does not depend on what the interpolations give outside the tables. *)
Theorem C90_freq_response : forall la spl spl' r speeds modes y, (forall e, In e (r_elements r) -> built e) ->
  (forall e table, In e (r_elements r) -> has_table e table -> In e (r_brg r)) -> same_inside spl spl' ->
  freq_response_warning la spl r speeds modes = Ok (false, y) -> freq_response_warning la spl' r speeds modes = Ok (false, y).
Proof.
  intros la spl spl' r speeds modes y B L S. unfold freq_response_warning. destruct (check_frequency_array speeds (r_brg r)) as [[]|] eqn:E; cbn [bind]; [destruct (run_freq_response _ _ _ _ _); discriminate| |discriminate].
  unfold run_freq_response. rewrite (mapM_same _ (fun w => bind (transfer_matrix la spl' r w None modes) (fun H => Ok (H, cscale (0, w) H, cscale (RtoC (- w ^ 2)) H)))); [auto|].
  intros w Hw. rewrite (transfer_same spl spl' r w (no_warning_reads _ _ _ _ _ B L S E Hw)). reflexivity.
Qed.
(** The same for the forced response and the response to unbalance, which call the frequency response. *)
Theorem C90_forced : forall la spl spl' r speeds modes, (forall e, In e (r_elements r) -> built e) ->
  (forall e table, In e (r_elements r) -> has_table e table -> In e (r_brg r)) -> same_inside spl spl' -> check_frequency_array speeds (r_brg r) = Ok false ->
  (forall force ncol, run_forced_response la spl r force ncol speeds modes = run_forced_response la spl' r force ncol speeds modes) /\
  (forall nodes mags phases, run_unbalance_response la spl r nodes mags phases speeds modes = run_unbalance_response la spl' r nodes mags phases speeds modes).
Proof.
  intros la spl spl' r speeds modes B L S E.
  assert (FR : run_freq_response la spl r speeds modes = run_freq_response la spl' r speeds modes).
  { apply mapM_same. intros w Hw. rewrite (transfer_same spl spl' r w (no_warning_reads _ _ _ _ _ B L S E Hw)). reflexivity. }
  assert (FO : forall force ncol, run_forced_response la spl r force ncol speeds modes = run_forced_response la spl' r force ncol speeds modes).
  { intros. unfold run_forced_response. rewrite FR. reflexivity. }
  split; [exact FO|]. intros. unfold run_unbalance_response. destruct (unbalance_sum _ _ _ _); [cbn [bind]|reflexivity]. rewrite FO. reflexivity.
Qed.
(** The same for the Campbell diagram, whatever start vector the iterative solver holds. *)
Theorem C90_campbell : forall la eigs eig2 spl spl' r speeds n by_wd st st' rows, (forall e, In e (r_elements r) -> built e) ->
  (forall e table, In e (r_elements r) -> has_table e table -> In e (r_brg r)) -> same_inside spl spl' ->
  campbell_warning la eigs eig2 spl r speeds n by_wd st = (Ok (false, rows), st') -> campbell_warning la eigs eig2 spl' r speeds n by_wd st = (Ok (false, rows), st').
Proof.
  intros la eigs eig2 spl spl' r speeds n by_wd st st' rows B L S. unfold campbell_warning. unfold sbind at 1, sres at 1. unfold sbind at 2, sres at 1.
  destruct (check_frequency_array speeds (r_brg r)) as [[]|] eqn:E; [unfold sbind; destruct (run_campbell _ _ _ _ _ _ _ _ _) as [[]]; discriminate| |discriminate].
  assert (CS : run_campbell la eigs eig2 spl r speeds n by_wd st = run_campbell la eigs eig2 spl' r speeds n by_wd st).
  { apply smap_same. intros w s Hw. unfold sbind at 1. rewrite (modal_same spl spl' r w (no_warning_reads _ _ _ _ _ B L S E Hw)). reflexivity. }
  unfold sbind. rewrite CS. auto.
Qed.

(** Every rotor the constructor returns, from bearings their constructors returned, meets the two hypotheses on elements. *)
Theorem C90_rotor : forall shafts disks brgs pms r, rotor_init shafts disks brgs pms = Ok r -> (forall b tag, In b brgs -> built (EBrg tag b)) ->
  (forall e, In e (r_elements r) -> built e) /\ (forall e table, In e (r_elements r) -> has_table e table -> In e (r_brg r)).
Proof.
  intros shafts disks brgs pms r E B. pose proof (rotor_facts _ _ _ _ _ E) as F. destruct (rotor_init_lists _ _ _ _ _ E) as (_ & _ & Lb & _).
  assert (K : forall e, In e (r_elements r) -> In e (r_brg r) \/ (forall t b, e <> EBrg t b)).
  { intros e He. unfold r_elements in He. rewrite !in_app_iff in He. destruct He as [He|[He|[He|He]]]; [right|right|left; exact He|right]; intros t b ->.
    - destruct (rf_shaft _ F _ He) as (? & ? & ? & ? & [=]).
    - destruct (rf_disk _ F _ He) as (? & ? & ? & [=]).
    - destruct (rf_pm _ F _ He) as (? & ? & ? & [=]). }
  split.
  - intros e He. destruct (K e He) as [Hb|N].
    + rewrite Lb in Hb. apply (Permutation_in _ (sort_n_perm _)) in Hb. apply mapi_in in Hb as (i & y & Hy & ->). unfold mk_brg. apply B, Hy.
    + destruct e; try exact I. exfalso. eapply N; reflexivity.
  - intros e table He (t & b & Ee & _). destruct (K e He) as [Hb|N]; [exact Hb|]. exfalso. exact (N _ _ Ee).
Qed.

(** Without tables there is no warning; with a table and an empty range the analyses fail. *)
Theorem C90_no_tables : forall r speeds, (forall e table, In e (r_brg r) -> ~ has_table e table) -> check_frequency_array speeds (r_brg r) = Ok false.
Proof. intros r speeds H. apply check_none, H. Qed.
Theorem C90_empty_range : forall la spl r modes,
  ((exists e table, In e (r_brg r) /\ has_table e table) -> freq_response_warning la spl r [] modes = Err ValueError) /\
  ((forall e table, In e (r_brg r) -> ~ has_table e table) -> freq_response_warning la spl r [] modes = Ok (false, [])).
Proof.
  intros la spl r modes. unfold freq_response_warning. split.
  - intros (e & t & He & T). rewrite (check_empty _ _ _ He T). reflexivity.
  - intros H. rewrite (check_none _ _ H). reflexivity.
Qed.

Lemma process_single w0 c p : process_coefficient (Some [w0]) c = Ok p -> (exists v, snd p = IConst v) \/ snd p = INone.
Proof.
  unfold process_coefficient. cbv zeta. set (l := match c with CScal _ => _ | CArr _ => _ end). destruct (Nat.ltb 1 (List.length l)).
  - unfold spline_accepts. cbn [List.length Nat.leb Nat.eqb orb]. rewrite andb_false_r. cbn. intros [= <-]. right; reflexivity.
  - destruct l; [discriminate|]. intros [= <-]. left; eexists; reflexivity.
Qed.
(** The warning is also given where nothing is extrapolated: the coefficients of a bearing with one speed in its table are constants, and every other speed warns. *)
Theorem C90_one_speed_refuted : forall e w0 w, built e -> has_table e [w0] -> w <> w0 ->
  check_frequency_array [w] [e] = Ok true /\
  forall spl spl' w', el_M spl w e = el_M spl' w' e /\ el_K spl w e = el_K spl' w' e /\ el_C spl w e = el_C spl' w' e.
Proof.
  intros e w0 w B T N. split.
  - apply has_table_iff in T. cbn. rewrite T. cbn. destruct (Rlt_dec w0 w); [reflexivity|]. destruct (Rlt_dec w w0); [reflexivity|]. exfalso. apply N. lra.
  - intros spl spl' w'. destruct T as (t & b & -> & F).
    assert (K : forall c p, process_coefficient (Some [w0]) c = Ok p -> eval_interp spl (snd p) w = eval_interp spl' (snd p) w').
    { intros c p Hp. destruct (process_single _ _ _ Hp) as [(v & ->)| ->]; reflexivity. }
    cbn [el_M el_K el_C]. destruct b as [s b|b]; cbn in B, F.
    + destruct B as (a & E). destruct (bearing_init_ok _ _ E) as (_ & _ & _ & _ & _ & HF & P). rewrite F in HF. rewrite <- HF in P.
      assert (Q : forall c, eval_coef spl b c w = eval_coef spl' b c w') by (intros c; exact (K _ _ (P c))).
      unfold bearing_M, bearing_K, bearing_C, block2. rewrite !Q. auto.
    + destruct B as (a & k & c & m & E). apply bearing6_ok in E as (E & E1 & E2 & E3). destruct (bearing_init_ok _ _ E) as (_ & _ & _ & _ & _ & HF & P). rewrite F in HF. rewrite <- HF in P, E1, E2, E3.
      assert (Q : forall c, eval_coef spl (b6 b) c w = eval_coef spl' (b6 b) c w') by (intros x; exact (K _ _ (P x))).
      unfold bearing6_M, bearing6_K, bearing6_C, block3. rewrite !Q, (K _ _ E1), (K _ _ E2), (K _ _ E3). auto.
Qed.

(** ** A case *)
Definition ex_args : bargs :=
  mkBArgs 0 (CScal 2) (CScal 3) (Some (CScal 1)) None (CScal 0) (CScal 0) None (CScal 0) (CScal 0) None (CScal 0) (CScal 0) (Some [0; 1; 2; 3]) (Some "b"%string) None 1 "#355d7a"%string.
Lemma ex_increasing : increasing [0; 1; 2; 3].
Proof. cbn. lra. Qed.
Lemma ex_bearing : exists b, bearing_init ex_args = Ok b.
Proof. apply (bearing_length_iff ex_args); [split; [exact ex_increasing|discriminate]|]. intros c. destruct c; exact I. Qed.
Definition off (spl : list R -> list R -> R -> R) : list R -> list R -> R -> R := fun xs ys w =>
  match extreme Rmax xs with Ok m => if Rle_dec w m then spl xs ys w else spl xs ys w + 1 | _ => spl xs ys w end.
Lemma off_same spl : same_inside spl (off spl) /\ off spl [0] [0] 1 <> spl [0] [0] 1.
Proof.
  split.
  - intros xs ys w (lo & hi & _ & Hhi & _ & H). unfold off. destruct (extreme_max xs ltac:(intros ->; exact Hhi)) as (m & -> & _ & M). specialize (M _ Hhi). destruct (Rle_dec w m); [reflexivity|exfalso; lra].
  - unfold off. cbn. destruct (Rle_dec 1 0); lra.
Qed.
Example C90_instance : forall spl, smoothing_spline spl -> exists r e y, r_brg r = [e] /\ has_table e [0; 1; 2; 3] /\ (forall e, In e (r_elements r) -> built e) /\
  (forall e table, In e (r_elements r) -> has_table e table -> In e (r_brg r)) /\ same_inside spl (off spl) /\ off spl [0] [0] 1 <> spl [0] [0] 1 /\
  freq_response_warning la1 spl r [3; 1] None = Ok (false, y) /\ check_frequency_array [3; 5] (r_brg r) = Ok true /\ check_frequency_array [-1; 2] (r_brg r) = Ok true.
Proof.
  intros spl S. destruct ex_bearing as (b & E). destruct (bearing_init_ok _ _ E) as (Hn & Hl & _ & _ & _ & HF & _).
  assert (Q : forall c w v, resolve ex_args c = CScal v -> eval_coef spl b c w = Ok v) by (intros c w v Hr; apply (coef_scalar spl ex_args b); [exact S|split; [exact ex_increasing|discriminate]|exact E|exact Hr]).
  set (e := EBrg "b" (RB4 false b)). set (r := mkRotor [] [] [e] [] 4 0 2 [] [] 0 0 0 0 0).
  assert (T : has_table e [0; 1; 2; 3]) by (exists "b"%string, (RB4 false b); split; [reflexivity|exact HF]).
  assert (B : forall e, In e (r_elements r) -> built e) by (intros e' [<-|[]]; exists ex_args; exact E).
  assert (EM : forall w, el_M spl w e = el_M spl w (EBrg "b" tiny_brg) /\ el_K spl w e = el_K spl w (EBrg "b" tiny_brg) /\ el_C spl w e = el_C spl w (EBrg "b" tiny_brg)).
  { intros w. unfold e. cbn [el_M el_K el_C]. unfold bearing_M, bearing_K, bearing_C, block2.
    rewrite !(Q mxx w 1), !(Q myy w 1), !(Q mxy w 0), !(Q myx w 0), !(Q kxx w 2), !(Q kyy w 2), !(Q kxy w 0), !(Q kyx w 0), !(Q cxx w 3), !(Q cyy w 3), !(Q cxy w 0), !(Q cyx w 0) by reflexivity.
    assert (HS : brg_size (RB4 false b) = brg_size tiny_brg) by (unfold brg_size, tiny_brg; cbn [brg_base b_n_link]; rewrite Hl; reflexivity). rewrite HS, Hl. repeat split; reflexivity. }
  assert (EG : el_G spl e = el_G spl (EBrg "b" tiny_brg)) by (change (bind (el_K spl 0 e) (fun p => Ok (fst p, mzero)) = bind (el_K spl 0 (EBrg "b" tiny_brg)) (fun p => Ok (fst p, mzero))); rewrite (proj1 (proj2 (EM 0))); reflexivity).
  assert (ED : r_dofs r e = r_dofs tiny (EBrg "b" tiny_brg)).
  { unfold r_dofs, el_dofs, e, dof_index. cbn [el_n el_link brg_base r_nd r_n_last r tiny tiny_brg b_n b_n_link]. rewrite Hn, Hl. reflexivity. }
  assert (HM : forall w, rotor_M spl r (Some w) = rotor_M spl tiny (Some w)) by (intros w; unfold rotor_M; cbn [r_elements r_shaft r_disk r_brg r_pm r tiny app assemble default r_ndof]; rewrite (proj1 (EM w)), ED; reflexivity).
  assert (HK : forall w, rotor_K spl r w [] = rotor_K spl tiny w []) by (intros w; unfold rotor_K; cbn [r_elements r_shaft r_disk r_brg r_pm r tiny app assemble default r_ndof kept filter existsb negb]; rewrite (proj1 (proj2 (EM w))), ED; reflexivity).
  assert (HC : forall w, rotor_C spl r w [] = rotor_C spl tiny w []) by (intros w; unfold rotor_C; cbn [r_elements r_shaft r_disk r_brg r_pm r tiny app assemble default r_ndof kept filter existsb negb]; rewrite (proj2 (proj2 (EM w))), ED; reflexivity).
  assert (HG : rotor_G spl r = rotor_G spl tiny) by (unfold rotor_G; cbn [r_elements r_shaft r_disk r_brg r_pm r tiny app assemble default r_ndof]; rewrite EG, ED; reflexivity).
  assert (HA : forall w f, rotor_A la1 spl r w f false = rotor_A la1 spl tiny w f false) by (intros w f; unfold rotor_A; cbn [r_ndof r tiny]; cbv zeta; fold r; fold tiny; rewrite HM, HK, HC, HG; reflexivity).
  assert (HT : forall w, transfer_matrix la1 spl r w None None = transfer_matrix la1 spl tiny w None None).
  { intros w. unfold transfer_matrix, rotor_lti, eigen. cbv zeta. rewrite !HA, HM, HK, HC. reflexivity. }
  destruct (tiny_transfer spl 3 None) as [H3 E3]. destruct (tiny_transfer spl 1 None) as [H1 E1].
  exists r, e. 
  assert (CK : check_frequency_array [3; 1] (r_brg r) = Ok false).
  { destruct (check_spec [3; 1] (r_brg r) ltac:(discriminate) ltac:(intros x Hx; apply B; exact Hx)) as ([] & -> & Iff); [|reflexivity]. exfalso. destruct (proj1 Iff eq_refl) as (e' & f & x & [<-|[]] & T' & Hx & N).
    apply has_table_iff in T, T'. rewrite T in T'. injection T' as <-. apply N. exists 0, 3. simpl. destruct Hx as [<-|[<-|[]]]; repeat split; auto; lra. }
  assert (OUT : forall a b0, a > 3 \/ b0 < 0 -> check_frequency_array [b0; a] (r_brg r) = Ok true).
  { intros a b0 H. destruct (check_spec [b0; a] (r_brg r) ltac:(discriminate) ltac:(intros x Hx; apply B; exact Hx)) as (w & -> & Iff). f_equal. apply Iff. exists e, [0; 1; 2; 3].
    destruct H as [H|H]; [exists a|exists b0]; (split; [left; reflexivity|]; split; [exact T|]; split; [simpl; auto|]; intros (lo & hi & I1 & I2 & L1 & L2)).
    - simpl in I2. destruct I2 as [<-|[<-|[<-|[<-|[]]]]]; lra.
    - simpl in I1. destruct I1 as [<-|[<-|[<-|[<-|[]]]]]; lra. }
  eexists. split; [reflexivity|]. split; [exact T|]. split; [exact B|]. split; [intros e' t [<-|[]] _; left; reflexivity|]. split; [apply off_same|]. split; [apply off_same|].
  split; [|split; apply OUT; lra]. unfold freq_response_warning. rewrite CK. cbn [bind]. unfold run_freq_response. cbn [mapM]. rewrite !HT, E3, E1. reflexivity.
Qed.
Example C90_one_speed_instance : exists e, built e /\ has_table e [100].
Proof.
  destruct (ex_bargs_ok (CScal 1) (Some [100])) as (b & E); [split; [exact I|discriminate]|exact I|]. exists (EBrg "b" (RB4 false b)).
  split; [exists (ex_bargs (CScal 1) (Some [100])); exact E|]. eexists _, _. split; [reflexivity|]. destruct (bearing_init_ok _ _ E) as (_ & _ & _ & _ & _ & HF & _). exact HF.
Qed.

Print Assumptions C90_warns_iff.
Print Assumptions C90_freq_response.
Print Assumptions C90_forced.
Print Assumptions C90_campbell.
Print Assumptions C90_rotor.
Print Assumptions C90_no_tables.
Print Assumptions C90_empty_range.
Print Assumptions C90_one_speed_refuted.
Print Assumptions C90_instance.
