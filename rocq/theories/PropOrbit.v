(** C36, C37: orbits, whirl directions, labels of modes. *)
From Coq Require Import Reals String List Arith ZArith Bool Lia Lra Psatz Permutation.
From Coquelicot Require Import Complex.
From Verif Require Import PyBase MatBase CMat MDynamics MFault MResults SpecResults LFault LResults LResults2 LResults4.
Import ListNotations.
Open Scope list_scope.
Open Scope R_scope.

(** ** C36: the reported axes are the smallest and the largest distance from the centre *)
Theorem C36_axes : forall eig2 ru rv, eig2_ok eig2 -> let o := orbit_init eig2 ru rv in
  (forall c, ob_minor o <= radius ru rv c <= ob_major o) /\
  (exists c, radius ru rv c = ob_minor o) /\ (exists c, radius ru rv c = ob_major o).
Proof.
  intros eig2 ru rv He o. split; [exact (axes_bound eig2 He ru rv)|].
  split; [exact (minor_attained eig2 He ru rv)|exact (major_attained eig2 He ru rv)].
Qed.
Theorem C36_kappa : forall eig2 ru rv, eig2_ok eig2 -> let o := orbit_init eig2 ru rv in
  -1 <= ob_kappa o <= 1 /\ Rabs (ob_kappa o) * ob_major o = ob_minor o /\
  (0 < ob_kappa o <-> turns_forward ru rv) /\ (ob_kappa o < 0 <-> turns_backward ru rv) /\ (ob_kappa o = 0 <-> on_a_line ru rv).
Proof.
  intros eig2 ru rv He o. destruct (kappa_range eig2 He ru rv) as [A B]. split; [exact A|]. split; [exact B|]. exact (kappa_signs eig2 He ru rv).
Qed.
Theorem C36_circle : forall eig2 ru rv, eig2_ok eig2 -> (Rabs (ob_kappa (orbit_init eig2 ru rv)) = 1 <-> circular ru rv).
Proof. intros eig2 ru rv He. exact (kappa_circle eig2 He ru rv). Qed.
Theorem C36_whirl_label : forall eig2 ru rv, eig2_ok eig2 -> let o := orbit_init eig2 ru rv in
  (ob_whirl o = Forward <-> turns_forward ru rv) /\ (ob_whirl o = Backward <-> turns_backward ru rv \/ on_a_line ru rv).
Proof. intros eig2 ru rv He o. split; [exact (whirl_forward eig2 He ru rv)|exact (whirl_backward eig2 He ru rv)]. Qed.
(** a node that moves on a straight line, or not at all, is labelled Backward *)
Theorem C36_backward_label_refuted : forall eig2, eig2_ok eig2 -> exists ru rv,
  ob_whirl (orbit_init eig2 ru rv) = Backward /\ ~ turns_backward ru rv.
Proof.
  intros eig2 He. exists (1, 0), (1, 0). split.
  - apply (whirl_backward eig2 He). right. apply line_area. unfold area. simpl. ring.
  - rewrite backward_area. unfold area. simpl. lra.
Qed.
(** scaling a mode by any nonzero complex number (amplitude and phase) changes neither kappa nor the label *)
Theorem C36_scaling : forall eig2 s ru rv, eig2_ok eig2 -> s <> RtoC 0 ->
  let o := orbit_init eig2 ru rv in let o' := orbit_init eig2 (s * ru)%C (s * rv)%C in
  ob_kappa o' = ob_kappa o /\ ob_whirl o' = ob_whirl o /\ ob_minor o' = Cmod s * ob_minor o /\ ob_major o' = Cmod s * ob_major o.
Proof.
  intros eig2 s ru rv He Hs o o'. unfold o, o'. rewrite !whirl_eq, (kappa_scale eig2 s ru rv He Hs). split; [auto|]. split; [auto|]. exact (axes_scale eig2 s ru rv He).
Qed.
(** the reported point on the major axis is a point of the orbit, short of the tip by a factor cos (pi / 359) at most *)
Theorem C36_major_point : forall eig2 ru rv, eig2_ok eig2 -> let o := orbit_init eig2 ru rv in
  (exists c, ob_major_x o = motion ru c /\ ob_major_y o = motion rv c) /\
  cos (PI / 359) * ob_major o <= sqrt (ob_major_x o ^ 2 + ob_major_y o ^ 2) <= ob_major o.
Proof.
  intros eig2 ru rv He o. destruct (sampled_major eig2 ru rv He) as (_ & A & B & D). fold o in A, B, D. split; [|exact D]. eexists. split; [exact A|exact B].
Qed.
(** the forward/backward decomposition used by the frequency response plots gives the same axes *)
Theorem C36_axis_vectors : forall eig2 x y, eig2_ok eig2 ->
  ax_value (axis_vector x y AMajor) = ob_major (orbit_init eig2 x y) /\ ax_value (axis_vector x y AMinor) = ob_minor (orbit_init eig2 x y) /\
  fst (calculate_amplitude (orbit_init eig2 x y) AMajor) = ob_major (orbit_init eig2 x y) /\
  fst (calculate_amplitude (orbit_init eig2 x y) AMinor) = ob_minor (orbit_init eig2 x y) /\
  (forall o, let a := axis_vector x y o in
     ob_major (orbit_init eig2 x y) = Cmod (ax_fow a) + Cmod (ax_back a) /\ ob_minor (orbit_init eig2 x y) = Rabs (Cmod (ax_fow a) - Cmod (ax_back a))).
Proof.
  intros eig2 x y He. split; [|split; [|split; [reflexivity|split; [reflexivity|]]]].
  - rewrite axis_major_value. symmetry. apply (fow_back_axes eig2 x y AMajor He).
  - rewrite axis_minor_value. symmetry. apply (fow_back_axes eig2 x y AMinor He).
  - intros o. exact (fow_back_axes eig2 x y o He).
Qed.
(** a forward ellipse twice as wide as high *)
Example C36_instance : exists eig2, eig2_ok eig2 /\ turns_forward (2, 0) (0, -1) /\
  ob_major (orbit_init eig2 (2, 0) (0, -1)) = 2 /\ ob_minor (orbit_init eig2 (2, 0) (0, -1)) = 1 /\ ob_kappa (orbit_init eig2 (2, 0) (0, -1)) = 1 / 2.
Proof.
  exists eig2_ex. split; [exact eig2_ex_ok|]. set (ru := (2, 0) : C). set (rv := (0, -1) : C).
  assert (A : area ru rv = 2) by (unfold area, ru, rv; simpl; ring).
  split; [apply forward_area; lra|].
  assert (P := minor_major_area eig2_ex eig2_ex_ok ru rv). assert (S := axes_squares eig2_ex eig2_ex_ok ru rv). assert (O := axes_order eig2_ex eig2_ex_ok ru rv).
  rewrite A, Rabs_pos_eq in P by lra. replace (fa ru rv + fg ru rv) with 5 in S by (unfold fa, fg, ru, rv; simpl; ring).
  destruct (axes_unique _ _ 1 2 O ltac:(lra) ltac:(lra) ltac:(lra)) as [E1 E2]. split; [exact E2|]. split; [exact E1|].
  rewrite (kappa_forward eig2_ex ru rv) by lra. rewrite E1, E2. reflexivity.
Qed.

(** ** C37: the label of a mode *)
Theorem C37_modal_labels : forall kappa,
  (modal_whirl kappa = Forward <-> forall k, In k kappa -> - / 1000 <= k) /\
  (modal_whirl kappa = Backward <-> (exists k, In k kappa /\ k < - / 1000) /\ forall k, In k kappa -> k <= / 1000) /\
  (modal_whirl kappa = Mixed <-> (exists k, In k kappa /\ k < - / 1000) /\ (exists k, In k kappa /\ / 1000 < k)).
Proof. intros l. exact (conj (modal_forward l) (conj (modal_backward l) (modal_mixed l))). Qed.
Theorem C37_order_irrelevant : forall l l', Permutation l l' -> modal_whirl l = modal_whirl l'.
Proof. exact modal_perm. Qed.
Theorem C37_shape_labels : forall ws, (forall w, In w ws -> w <> Mixed) ->
  (shape_whirl ws = Forward <-> forall w, In w ws -> w = Forward) /\
  (shape_whirl ws = Backward <-> ws <> [] /\ forall w, In w ws -> w = Backward) /\
  (shape_whirl ws = Mixed <-> In Forward ws /\ In Backward ws).
Proof.
  intros ws Hm. split; [apply shape_whirl_forward|]. split; [apply shape_whirl_backward|]. split.
  - intros H. unfold shape_whirl in H. destruct (forallb (whirl_eqb Forward) ws) eqn:E1; [discriminate|]. destruct (forallb (whirl_eqb Backward) ws) eqn:E2; [discriminate|].
    apply forallb_false in E1. apply forallb_false in E2. destruct E1 as (x & Hx & E1). destruct E2 as (y & Hy & E2).
    assert (x = Backward) by (destruct x; try discriminate; auto; exfalso; apply (Hm Mixed); auto).
    assert (y = Forward) by (destruct y; try discriminate; auto; exfalso; apply (Hm Mixed); auto). subst. auto.
  - intros [F B]. destruct (shape_whirl ws) eqn:E; auto.
    + apply shape_whirl_forward with (w := Backward) in E; [discriminate|auto].
    + apply shape_whirl_backward in E. destruct E as [_ E]. specialize (E Forward F). discriminate.
Qed.
(** the labels of a shape and of the modal results agree when no orbit is nearly a line ... *)
Theorem C37_labels_agree : forall eig2 (nodes : list (C * C)), eig2_ok eig2 ->
  let os := map (fun p => orbit_init eig2 (fst p) (snd p)) nodes in
  (forall o, In o os -> / 1000 < Rabs (ob_kappa o)) -> shape_whirl (map ob_whirl os) = modal_whirl (map ob_kappa os).
Proof. exact shape_whirl_modal. Qed.
(** ... and disagree for a mode that moves in one plane: Shape says Backward, ModalResults says Forward *)
Theorem C37_labels_agree_refuted : forall eig2, eig2_ok eig2 -> exists nodes : list (C * C), nodes <> [] /\
  let os := map (fun p => orbit_init eig2 (fst p) (snd p)) nodes in
  shape_whirl (map ob_whirl os) = Backward /\ modal_whirl (map ob_kappa os) = Forward.
Proof.
  intros eig2 He. exists [((1, 0), (0, 0)) : C * C]. split; [discriminate|]. cbn [map fst snd].
  assert (A : area (1, 0) (0, 0) = 0) by (unfold area; simpl; ring).
  destruct (kappa_zero eig2 He (1, 0) (0, 0) A) as [K _]. rewrite whirl_eq, K. destruct (Rlt_dec 0 0); [lra|]. split; [reflexivity|].
  apply modal_forward. intros k [<-|[]]. lra.
Qed.
Theorem C37_colours_distinct : forall w w', whirl_to_cmap w = whirl_to_cmap w' -> w = w'.
Proof. intros [] []; unfold whirl_to_cmap; intros; auto; exfalso; lra. Qed.
(** axial, torsional and lateral modes of a 6-dof rotor *)
Theorem C37_mode_kind : forall size v,
  (classify 6 size v = Axial <-> forall i, (i < size)%nat -> 5 / 10 ^ 7 < Cmod (v i) -> (i mod 6 = 2)%nat) /\
  (classify 6 size v = Torsional <-> classify 6 size v <> Axial /\ forall i, (i < size)%nat -> 5 / 10 ^ 7 < Cmod (v i) -> (i mod 6 = 5)%nat) /\
  classify 4 size v = Lateral.
Proof. intros size v. exact (conj (classify_axial size v) (conj (classify_torsional size v) eq_refl)). Qed.
(** the kind depends on the length of the vector: a short lateral mode is called axial *)
Theorem C37_kind_scaling_refuted : exists (s : C) size v, s <> RtoC 0 /\ classify 6 size v = Lateral /\ classify 6 size (fun i => s * v i)%C = Axial.
Proof.
  exists (RtoC (1 / 10 ^ 7)), 12%nat, (fun i => if Nat.eqb (i mod 6) 0 then RtoC 1 else RtoC 0). split; [|split].
  - intros E. apply RtoC_inj in E. lra.
  - destruct (classify 6 12 _) eqn:E; auto; exfalso.
    + assert (H := proj1 (classify_axial _ _) E 0%nat ltac:(lia)). simpl in H. rewrite Cmod_1 in H. specialize (H ltac:(lra)). discriminate.
    + assert (H := proj2 (proj1 (classify_torsional _ _) E) 0%nat ltac:(lia)). simpl in H. rewrite Cmod_1 in H. specialize (H ltac:(lra)). discriminate.
  - apply classify_axial. intros i Hi H. exfalso. rewrite Cmod_mult, Cmod_R, Rabs_pos_eq in H by lra.
    destruct (Nat.eqb (i mod 6) 0); [rewrite Cmod_1 in H|rewrite Cmod_0 in H]; lra.
Qed.
Example C37_instance : modal_whirl [1 / 2; - / 2000; 1] = Forward /\ modal_whirl [1 / 2; -1] = Mixed.
Proof.
  split.
  - apply modal_forward. intros k [<-|[<-|[<-|[]]]]; lra.
  - apply modal_mixed. split; [exists (-1)|exists (1 / 2)]; simpl; split; auto; lra.
Qed.

Print Assumptions C36_axes.
Print Assumptions C36_kappa.
Print Assumptions C36_major_point.
Print Assumptions C36_axis_vectors.
Print Assumptions C37_modal_labels.
Print Assumptions C37_labels_agree.
Print Assumptions C37_mode_kind.
