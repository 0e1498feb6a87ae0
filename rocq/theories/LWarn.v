From Coq Require Import Reals List Bool Lra Lia.
From Verif Require Import PyBase MatBase CMat MBearing MRotor MDynamics MModal MUcs MWarn SpecWarn SpecTime LBearing LBearing2 LDynamics.
Import ListNotations.
Open Scope R_scope.

(** ** extremes *)
Lemma fold_max l : forall x, (forall y, In y (x :: l) -> y <= fold_left Rmax l x) /\ In (fold_left Rmax l x) (x :: l).
Proof.
  induction l as [|z l IH]; intros x; [split; [intros y [<-|[]]; simpl; lra|left; reflexivity]|]. cbn [fold_left]. destruct (IH (Rmax x z)) as (A & B). split.
  - intros y Hy. assert (M : Rmax x z <= fold_left Rmax l (Rmax x z)) by (apply A; left; reflexivity). pose proof (Rmax_l x z). pose proof (Rmax_r x z).
    destruct Hy as [<-|[<-|Hy]]; [lra|lra|apply A; right; exact Hy].
  - destruct B as [B|B]; [|right; right; exact B]. rewrite <- B. unfold Rmax. destruct (Rle_dec x z); simpl; auto.
Qed.
Lemma fold_min l : forall x, (forall y, In y (x :: l) -> fold_left Rmin l x <= y) /\ In (fold_left Rmin l x) (x :: l).
Proof.
  induction l as [|z l IH]; intros x; [split; [intros y [<-|[]]; simpl; lra|left; reflexivity]|]. cbn [fold_left]. destruct (IH (Rmin x z)) as (A & B). split.
  - intros y Hy. assert (M : fold_left Rmin l (Rmin x z) <= Rmin x z) by (apply A; left; reflexivity). pose proof (Rmin_l x z). pose proof (Rmin_r x z).
    destruct Hy as [<-|[<-|Hy]]; [lra|lra|apply A; right; exact Hy].
  - destruct B as [B|B]; [|right; right; exact B]. rewrite <- B. unfold Rmin. destruct (Rle_dec x z); simpl; auto.
Qed.
Lemma extreme_max l : l <> [] -> exists m, extreme Rmax l = Ok m /\ In m l /\ forall y, In y l -> y <= m.
Proof. destruct l as [|x l]; [congruence|]. intros _. destruct (fold_max l x). eexists. split; [reflexivity|]. auto. Qed.
Lemma extreme_min l : l <> [] -> exists m, extreme Rmin l = Ok m /\ In m l /\ forall y, In y l -> m <= y.
Proof. destruct l as [|x l]; [congruence|]. intros _. destruct (fold_min l x). eexists. split; [reflexivity|]. auto. Qed.

(** ** what a constructed bearing holds *)
Lemma process_table f c p : process_coefficient f c = Ok p -> forall xs ys, snd p = ISpline xs ys -> f = Some xs.
Proof.
  unfold process_coefficient. cbv zeta. set (l := match c with CScal _ => _ | CArr _ => _ end). destruct (Nat.ltb 1 (length l)).
  - destruct f as [f|]; [|discriminate]. destruct (spline_accepts f l); [intros [= <-] xs ys [= <- _]; reflexivity|].
    destruct (_ || _)%bool; [destruct (interp1d_accepts f l); [intros [= <-] xs ys [=]|discriminate]|intros [= <-] xs ys [=]].
  - destruct l; [discriminate|]. intros [= <-] xs ys [=].
Qed.
Lemma process_nonempty c p : process_coefficient (Some []) (CScal c) = Ok p -> False.
Proof. discriminate. Qed.
Lemma init_table_nonempty a b f : bearing_init a = Ok b -> b_frequency b = Some f -> f <> [].
Proof.
  intros E F ->. destruct (bearing_init_ok _ _ E) as (_ & _ & _ & _ & _ & HF & P). rewrite F in HF.
  assert (OK : is_ok (bearing_init a)) by (exists b; exact E). pose proof (proj1 (bearing_init_iff a) OK kxx) as (p & Hp & L). rewrite <- HF in Hp, L.
  rewrite <- HF in P. cbn in L. unfold process_coefficient in Hp. cbv zeta in Hp. destruct (resolve a kxx) as [v|l]; cbn in Hp; [discriminate|].
  destruct l as [|x [|y l]]; cbn in Hp; [discriminate| |]; injection Hp as <-; cbn in L; discriminate.
Qed.
Lemma built_table e f : built e -> has_table e f -> f <> [].
Proof.
  intros B (t & b & -> & F). destruct b as [s b|b]; cbn in B, F.
  - destruct B as (a & E). exact (init_table_nonempty _ _ _ E F).
  - destruct B as (a & k & c & m & E). apply bearing6_ok in E as (E & _). exact (init_table_nonempty _ _ _ E F).
Qed.
Lemma has_table_iff e f : has_table e f <-> el_frequency e = Some f.
Proof.
  split; [intros (t & b & -> & H); exact H|]. destruct e; try discriminate. intros H. eexists _, _. split; [reflexivity|exact H].
Qed.

(** ** the warning *)
Lemma check_spec range l : range <> [] -> (forall e, In e l -> built e) ->
  exists w, check_frequency_array range l = Ok w /\ (w = true <-> exists e f x, In e l /\ has_table e f /\ In x range /\ ~ inside f x).
Proof.
  intros NE. induction l as [|e l IH]; intros B.
  - exists false. split; [reflexivity|]. split; [discriminate|intros (e & f & x & [] & _)].
  - destruct (IH (fun e' H => B e' (or_intror H))) as (w & Hw & Iff). cbn [check_frequency_array]. destruct (el_frequency e) as [f|] eqn:F.
    + pose proof (proj2 (has_table_iff e f) F) as T. assert (Nf : f <> []) by (apply (built_table e f); [apply B; left; reflexivity|exact T]).
      destruct (extreme_max range NE) as (hi & -> & Ihi & Mhi). destruct (extreme_max f Nf) as (top & -> & Itop & Mtop).
      destruct (extreme_min range NE) as (lo & -> & Ilo & Mlo). destruct (extreme_min f Nf) as (bot & -> & Ibot & Mbot). cbn [bind].
      destruct (Rlt_dec top hi) as [L1|L1].
      { exists true. split; [reflexivity|]. split; [intros _|reflexivity]. exists e, f, hi. split; [left; reflexivity|]. split; [exact T|]. split; [exact Ihi|].
        intros (a & b & _ & Hb & _ & H). specialize (Mtop _ Hb). lra. }
      destruct (Rlt_dec lo bot) as [L2|L2].
      { exists true. split; [reflexivity|]. split; [intros _|reflexivity]. exists e, f, lo. split; [left; reflexivity|]. split; [exact T|]. split; [exact Ilo|].
        intros (a & b & Ha & _ & H & _). specialize (Mbot _ Ha). lra. }
      exists w. split; [exact Hw|]. rewrite Iff. split; [intros (e' & f' & x & H & H'); exists e', f', x; split; [right; exact H|exact H']|].
      intros (e' & f' & x & [<-|H] & T' & Hx & N); [|exists e', f', x; auto]. exfalso. apply has_table_iff in T'. rewrite F in T'. injection T' as <-. apply N.
      exists bot, top. split; [exact Ibot|]. split; [exact Itop|]. specialize (Mhi _ Hx). specialize (Mlo _ Hx). lra.
    + exists w. split; [exact Hw|]. rewrite Iff. split; [intros (e' & f' & x & H & H'); exists e', f', x; split; [right; exact H|exact H']|].
      intros (e' & f' & x & [<-|H] & T' & H'); [apply has_table_iff in T'; congruence|exists e', f', x; auto].
Qed.
Lemma check_none range l : (forall e f, In e l -> ~ has_table e f) -> check_frequency_array range l = Ok false.
Proof.
  induction l as [|e l IH]; intros H; [reflexivity|]. cbn. destruct (el_frequency e) as [f|] eqn:F; [exfalso; apply (H e f); [left; reflexivity|apply has_table_iff, F]|].
  apply IH. intros e' f He. apply H. right; exact He.
Qed.
Lemma check_empty l e f : In e l -> has_table e f -> check_frequency_array [] l = Err ValueError.
Proof.
  induction l as [|e' l IH]; intros [] T.
  - subst e'. apply has_table_iff in T. cbn. rewrite T. reflexivity.
  - cbn. destruct (el_frequency e'); [reflexivity|]. apply IH; assumption.
Qed.

(** ** the matrices only read the interpolation where they are evaluated *)
Lemma eval_same spl spl' i w : (forall xs ys, i = ISpline xs ys -> spl xs ys w = spl' xs ys w) -> eval_interp spl i w = eval_interp spl' i w.
Proof. intros H. destruct i; cbn; auto. rewrite (H _ _ eq_refl). reflexivity. Qed.
Definition reads_same spl spl' (w : R) (e : elem) : Prop := match e with
  | EBrg _ b => (forall c, eval_coef spl (brg_base b) c w = eval_coef spl' (brg_base b) c w) /\
      match b with RB6 b => forall i, In i [snd (b6_kzz b); snd (b6_czz b); snd (b6_mzz b)] -> eval_interp spl i w = eval_interp spl' i w | _ => True end
  | _ => True end.
Lemma built_reads spl spl' w e : same_inside spl spl' -> built e -> (forall f, has_table e f -> inside f w) -> reads_same spl spl' w e.
Proof.
  intros S B T. destruct e; try exact I. cbn [reads_same]. 
  assert (K : forall a c p, b_frequency (brg_base b) = a -> process_coefficient a c = Ok p -> eval_interp spl (snd p) w = eval_interp spl' (snd p) w).
  { intros a c p Ea Hp. apply eval_same. intros xs ys E. apply S, T. eexists _, _. split; [reflexivity|]. rewrite Ea. exact (process_table _ _ _ Hp _ _ E). }
  destruct b as [s b|b]; cbn in B.
  - destruct B as (a & E). destruct (bearing_init_ok _ _ E) as (_ & _ & _ & _ & _ & HF & P). split; [|exact I]. intros c. exact (K _ _ _ HF (P c)).
  - destruct B as (a & k & c & m & E). apply bearing6_ok in E as (E & E1 & E2 & E3). destruct (bearing_init_ok _ _ E) as (_ & _ & _ & _ & _ & HF & P).
    split; [intros x; exact (K _ _ _ HF (P x))|]. intros i [<-|[<-|[<-|[]]]]; [exact (K _ _ _ HF E1)|exact (K _ _ _ HF E2)|exact (K _ _ _ HF E3)].
Qed.
Lemma block2_same spl spl' b w xx xy yx yy : (forall c, eval_coef spl b c w = eval_coef spl' b c w) -> block2 spl b w xx xy yx yy = block2 spl' b w xx xy yx yy.
Proof. intros H. unfold block2. rewrite !H. reflexivity. Qed.
Lemma block3_same spl spl' b w xx xy yx yy zz : (forall c, eval_coef spl (b6 b) c w = eval_coef spl' (b6 b) c w) -> eval_interp spl zz w = eval_interp spl' zz w ->
  block3 spl b w xx xy yx yy zz = block3 spl' b w xx xy yx yy zz.
Proof. intros H Z. unfold block3. rewrite !H, Z. reflexivity. Qed.
Lemma el_same spl spl' w e : reads_same spl spl' w e -> el_M spl w e = el_M spl' w e /\ el_K spl w e = el_K spl' w e /\ el_C spl w e = el_C spl' w e.
Proof.
  destruct e; cbn [reads_same]; try (intros _; repeat split; reflexivity). intros (H & Z). cbn [el_M el_K el_C]. destruct b as [s b|b]; cbn [brg_base] in H.
  - unfold bearing_M, bearing_K, bearing_C. rewrite !(block2_same _ _ _ _ _ _ _ _ H). auto.
  - unfold bearing6_M, bearing6_K, bearing6_C. rewrite !(block3_same spl spl') by (auto; apply Z; simpl; auto). auto.
Qed.
Lemma eval_ok spl spl' i w : (exists v v', eval_interp spl i w = Ok v /\ eval_interp spl' i w = Ok v') \/ (exists x, eval_interp spl i w = Err x /\ eval_interp spl' i w = Err x).
Proof. destruct i; cbn; eauto 6. Qed.
Lemma el_G_same spl spl' e : el_G spl e = el_G spl' e.
Proof.
  destruct e; try reflexivity. cbn [el_G el_K]. destruct b as [s b|b]; unfold sized, bearing_K, bearing6_K, block2, block3, eval_coef.
  - destruct (eval_ok spl spl' (snd (b_coef b kxx)) 0) as [(v1 & v1' & -> & ->)|(x & -> & ->)]; [cbn [bind]|reflexivity].
    destruct (eval_ok spl spl' (snd (b_coef b kyy)) 0) as [(v2 & v2' & -> & ->)|(x & -> & ->)]; [cbn [bind]|reflexivity].
    destruct (eval_ok spl spl' (snd (b_coef b kxy)) 0) as [(v3 & v3' & -> & ->)|(x & -> & ->)]; [cbn [bind]|reflexivity].
    destruct (eval_ok spl spl' (snd (b_coef b kyx)) 0) as [(v4 & v4' & -> & ->)|(x & -> & ->)]; reflexivity.
  - destruct (eval_ok spl spl' (snd (b_coef (b6 b) kxx)) 0) as [(v1 & v1' & -> & ->)|(x & -> & ->)]; [cbn [bind]|reflexivity].
    destruct (eval_ok spl spl' (snd (b_coef (b6 b) kyy)) 0) as [(v2 & v2' & -> & ->)|(x & -> & ->)]; [cbn [bind]|reflexivity].
    destruct (eval_ok spl spl' (snd (b_coef (b6 b) kxy)) 0) as [(v3 & v3' & -> & ->)|(x & -> & ->)]; [cbn [bind]|reflexivity].
    destruct (eval_ok spl spl' (snd (b_coef (b6 b) kyx)) 0) as [(v4 & v4' & -> & ->)|(x & -> & ->)]; [cbn [bind]|reflexivity].
    destruct (eval_ok spl spl' (snd (b6_kzz b)) 0) as [(v5 & v5' & -> & ->)|(x & -> & ->)]; reflexivity.
Qed.
Lemma assemble_same N D f g l : (forall e, In e l -> f e = g e) -> forall acc, assemble N D f l acc = assemble N D g l acc.
Proof.
  induction l as [|e l IH]; intros H acc; [reflexivity|]. cbn [assemble]. rewrite (H e (or_introl eq_refl)). destruct (g e); [cbn [bind]|reflexivity].
  destruct (add_at _ _ _ _); [cbn [bind]|reflexivity]. apply IH. intros e' He. apply H. right; exact He.
Qed.

Section Rotor.
Variables (spl spl' : list R -> list R -> R -> R) (r : rotor) (w : R).
Hypothesis H : forall e, In e (r_elements r) -> reads_same spl spl' w e.
Lemma M_same : rotor_M spl r (Some w) = rotor_M spl' r (Some w).
Proof. apply assemble_same. intros e He. apply el_same, H, He. Qed.
Lemma M_sync_same : rotor_M_sync spl r (Some w) = rotor_M_sync spl' r (Some w).
Proof.
  apply assemble_same. intros e He. unfold el_M_sync. cbn [default]. rewrite (proj1 (el_same _ _ _ _ (H _ He))). rewrite (el_G_same spl spl'). reflexivity.
Qed.
Lemma K_same ignore : rotor_K spl r w ignore = rotor_K spl' r w ignore.
Proof. apply assemble_same. intros e He. unfold kept in He. apply filter_In in He as (He & _). apply el_same, H, He. Qed.
Lemma C_same ignore : rotor_C spl r w ignore = rotor_C spl' r w ignore.
Proof. apply assemble_same. intros e He. unfold kept in He. apply filter_In in He as (He & _). apply el_same, H, He. Qed.
Lemma G_same : rotor_G spl r = rotor_G spl' r.
Proof. apply assemble_same. intros e _. apply el_G_same. Qed.
Lemma A_same la sync f : default w f = w -> rotor_A la spl r w f sync = rotor_A la spl' r w f sync.
Proof. intros E. unfold rotor_A. rewrite E. cbv zeta. rewrite M_same, M_sync_same, K_same, C_same, G_same. reflexivity. Qed.
Lemma transfer_same la modes : transfer_matrix la spl r w None modes = transfer_matrix la spl' r w None modes.
Proof.
  unfold transfer_matrix, rotor_lti, eigen. cbn [default]. rewrite !(A_same la) by reflexivity. rewrite M_same, K_same, C_same. reflexivity.
Qed.
Lemma modal_same la eigs eig2 nm sparse sync st : run_modal la eigs eig2 spl r w nm sparse sync st = run_modal la eigs eig2 spl' r w nm sparse sync st.
Proof. unfold run_modal, eigen_full, sbind. rewrite (A_same la) by reflexivity. reflexivity. Qed.
End Rotor.
Lemma mapM_same {A B} (f g : A -> res B) l : (forall x, In x l -> f x = g x) -> mapM f l = mapM g l.
Proof. induction l as [|x l IH]; intros H; [reflexivity|]. cbn. rewrite (H x (or_introl eq_refl)). destruct (g x); [cbn|reflexivity]. rewrite IH; auto. intros; apply H; right; auto. Qed.
Lemma smap_same {A B} (f g : A -> St B) l : (forall x st, In x l -> f x st = g x st) -> forall st, smap f l st = smap g l st.
Proof.
  induction l as [|x l IH]; intros H st; [reflexivity|]. cbn. unfold sbind. rewrite (H x st (or_introl eq_refl)). destruct (g x st) as [[y|] st']; [|reflexivity].
  rewrite IH; auto. intros; apply H; right; auto.
Qed.
