(** Lemmas about disks and point masses. *)
From Coq Require Import Reals List Lra Lia Psatz.
From Coquelicot Require Import Coquelicot.
From Verif Require Import PyBase MatBase SpecMat MMaterial MDisk SpecDisk SpecShaft LMat.
Import ListNotations.
Open Scope R_scope.

Ltac req := match goal with |- @eq _ ?a ?b => change (@eq R a b) end.

Lemma RInt_antider (f F : R -> R) a b : (forall x, is_derive F x (f x)) -> (forall x, continuous f x) ->
  RInt f a b = F b - F a.
Proof.
  intros HF Hf. apply is_RInt_unique.
  apply (is_RInt_derive F f); intros; auto.
Qed.

Lemma int_mass rho ri ro w : cyl_integral ri ro w (f_mass rho) = rho * PI * (ro ^ 2 - ri ^ 2) * w.
Proof.
  unfold cyl_integral, f_mass.
  rewrite (RInt_ext _ (fun z => rho * PI * (ro ^ 2 - ri ^ 2))).
  - rewrite RInt_const. unfold scal; simpl; unfold mult; simpl. req; field.
  - intros z _. rewrite (RInt_ext _ (fun r => rho * (2 * PI) * r)).
    + rewrite (RInt_antider _ (fun r => rho * PI * r ^ 2)).
      * req; ring.
      * intros x. auto_derive; auto. req; ring.
      * intros x. apply (ex_derive_continuous (fun r => rho * (2 * PI) * r)). auto_derive; auto.
    + intros r _. rewrite RInt_const. unfold scal; simpl; unfold mult; simpl. req; ring.
Qed.

Lemma int_polar rho ri ro w : cyl_integral ri ro w (f_polar rho) = rho * PI * (ro ^ 4 - ri ^ 4) / 2 * w.
Proof.
  unfold cyl_integral, f_polar.
  rewrite (RInt_ext _ (fun z => rho * PI * (ro ^ 4 - ri ^ 4) / 2)).
  - rewrite RInt_const. unfold scal; simpl; unfold mult; simpl. req; field.
  - intros z _. rewrite (RInt_ext _ (fun r => rho * (2 * PI) * r ^ 3)).
    + rewrite (RInt_antider _ (fun r => rho * PI * r ^ 4 / 2)).
      * req; field.
      * intros x. auto_derive; auto. req; field.
      * intros x. apply (ex_derive_continuous (fun r => rho * (2 * PI) * r ^ 3)). auto_derive; auto.
    + intros r _. rewrite (RInt_ext _ (fun _ => rho * r ^ 3)).
      * rewrite RInt_const. unfold scal; simpl; unfold mult; simpl. req; ring.
      * intros th _. req. pose proof (sin2_cos2 th) as E. unfold Rsqr in E.
        replace (rho * ((r * cos th) ^ 2 + (r * sin th) ^ 2) * r) with (rho * r ^ 3 * (sin th * sin th + cos th * cos th)) by ring.
        rewrite E. ring.
Qed.

Lemma int_diam rho ri ro w : cyl_integral ri ro w (f_diam rho)
  = rho * PI * (ro ^ 4 - ri ^ 4) / 4 * w + rho * PI * (ro ^ 2 - ri ^ 2) * w ^ 3 / 12.
Proof.
  unfold cyl_integral, f_diam.
  rewrite (RInt_ext _ (fun z => rho * PI * (ro ^ 4 - ri ^ 4) / 4 + rho * PI * (ro ^ 2 - ri ^ 2) * z ^ 2)).
  - rewrite (RInt_antider _ (fun z => rho * PI * (ro ^ 4 - ri ^ 4) / 4 * z + rho * PI * (ro ^ 2 - ri ^ 2) * z ^ 3 / 3)).
    + req; field.
    + intros x. auto_derive; auto. req; field.
    + intros x. apply (ex_derive_continuous (fun z => rho * PI * (ro ^ 4 - ri ^ 4) / 4 + rho * PI * (ro ^ 2 - ri ^ 2) * z ^ 2)). auto_derive; auto.
  - intros z _. rewrite (RInt_ext _ (fun r => rho * (PI * r ^ 3 + 2 * PI * z ^ 2 * r))).
    + rewrite (RInt_antider _ (fun r => rho * (PI * r ^ 4 / 4 + PI * z ^ 2 * r ^ 2))).
      * req; field.
      * intros x. auto_derive; auto. req; field.
      * intros x. apply (ex_derive_continuous (fun r => rho * (PI * r ^ 3 + 2 * PI * z ^ 2 * r))). auto_derive; auto.
    + intros r _. rewrite (RInt_antider _ (fun th => rho * (r ^ 3 * (th - sin th * cos th) / 2 + z ^ 2 * r * th))).
      * rewrite sin_0, sin_2PI. req; field.
      * intros th. auto_derive; auto. req. pose proof (sin2_cos2 th) as E. unfold Rsqr in E.
        assert (C : cos th * cos th = 1 - sin th * sin th) by lra.
        transitivity (rho * (r ^ 3 * (1 + sin th * sin th - cos th * cos th) / 2 + z ^ 2 * r)); [field|].
        rewrite C. field.
      * intros th. apply (ex_derive_continuous (fun th => rho * ((r * sin th) ^ 2 + z ^ 2) * r)). auto_derive; auto.
Qed.

Lemma disk_geometry n mt w i_d o_d tag : let d := disk_from_geometry n mt w i_d o_d tag in
  d_n d = n /\ d_tag d = tag /\
  d_m d = cyl_integral (i_d / 2) (o_d / 2) w (f_mass (mrho mt)) /\
  d_Ip d = cyl_integral (i_d / 2) (o_d / 2) w (f_polar (mrho mt)) /\
  d_Id d = cyl_integral (i_d / 2) (o_d / 2) w (f_diam (mrho mt)).
Proof.
  cbv zeta. rewrite int_mass, int_polar, int_diam. unfold disk_from_geometry; simpl.
  repeat split; field.
Qed.

(** quadratic forms *)
Lemma disk_M_form d x y : bform 4 (disk_M d) x y =
  d_m d * (x 0%nat * y 0%nat + x 1%nat * y 1%nat) + d_Id d * (x 2%nat * y 2%nat + x 3%nat * y 3%nat).
Proof. unfold bform, disk_M, lmat; cbn [sumn nth]. ring. Qed.
Lemma disk_G_form d x y : bform 4 (disk_G d) x y = d_Ip d * (x 2%nat * y 3%nat - x 3%nat * y 2%nat).
Proof. unfold bform, disk_G, lmat; cbn [sumn nth]. ring. Qed.
Lemma disk6_M_form d x y : bform 6 (disk6_M d) x y =
  d_m d * (x 0%nat * y 0%nat + x 1%nat * y 1%nat + x 2%nat * y 2%nat)
  + d_Id d * (x 3%nat * y 3%nat + x 4%nat * y 4%nat) + d_Ip d * (x 5%nat * y 5%nat).
Proof. unfold bform, disk6_M, lmat; cbn [sumn nth]. ring. Qed.
Lemma disk6_G_form d x y : bform 6 (disk6_G d) x y = d_Ip d * (x 3%nat * y 4%nat - x 4%nat * y 3%nat).
Proof. unfold bform, disk6_G, lmat; cbn [sumn nth]. ring. Qed.

Ltac dtab := let i := fresh "i" in let j := fresh "j" in let Hi := fresh in let Hj := fresh in
  intros i j Hi Hj;
  do 6 (try (destruct i as [|i]; [do 6 (try (destruct j as [|j]; [cbn; try reflexivity; ring|])); exfalso; lia|]));
  exfalso; lia.

Lemma disk_M_sym d : symmetric 4 (disk_M d). Proof. dtab. Qed.
Lemma disk6_M_sym d : symmetric 6 (disk6_M d). Proof. dtab. Qed.
Lemma disk_G_skew d : skew 4 (disk_G d). Proof. dtab. Qed.
Lemma disk6_G_skew d : skew 6 (disk6_G d). Proof. dtab. Qed.
Lemma pmass_M_sym d : symmetric 2 (pmass_M d). Proof. dtab. Qed.
Lemma pmass6_M_sym d : symmetric 3 (pmass6_M d). Proof. dtab. Qed.

Lemma disk_M_psd d : 0 <= d_m d -> 0 <= d_Id d -> pos_semidef 4 (disk_M d).
Proof.
  intros Hm Hi x. rewrite disk_M_form. apply Rplus_le_le_0_compat; apply Rmult_le_pos; auto; nra.
Qed.
Lemma disk_M_pd d : 0 < d_m d -> 0 < d_Id d -> pos_def 4 (disk_M d).
Proof.
  intros Hm Hi x (i & Hi4 & Hx). rewrite disk_M_form.
  assert (Q : forall c k, 0 < c -> 0 <= c * (x k * x k)) by (intros; nra).
  assert (P : forall c, 0 < c -> 0 < c * (x i * x i)) by (intros; apply Rmult_lt_0_compat; nra).
  pose proof (P _ Hm). pose proof (P _ Hi).
  pose proof (Q _ 0%nat Hm). pose proof (Q _ 1%nat Hm). pose proof (Q _ 2%nat Hi). pose proof (Q _ 3%nat Hi).
  clear P Q. do 4 (destruct i as [|i]; [lra|]). lia.
Qed.
Lemma disk6_M_psd d : 0 <= d_m d -> 0 <= d_Id d -> 0 <= d_Ip d -> pos_semidef 6 (disk6_M d).
Proof.
  intros Hm Hi Hp x. rewrite disk6_M_form.
  apply Rplus_le_le_0_compat; [apply Rplus_le_le_0_compat|]; apply Rmult_le_pos; auto; nra.
Qed.
Lemma disk6_Kdt_G d : forall i j, (i < 6)%nat -> (j < 6)%nat -> disk6_Kdt d j i - disk6_Kdt d i j = disk6_G d i j.
Proof.
  intros i j Hi Hj. unfold disk6_Kdt, disk6_G, lmat.
  do 6 (destruct i as [|i]; [do 6 (destruct j as [|j]; [cbn [nth]; ring|]); exfalso; lia|]). exfalso; lia.
Qed.
Lemma disk6_M_pd d : 0 < d_m d -> 0 < d_Id d -> 0 < d_Ip d -> pos_def 6 (disk6_M d).
Proof.
  intros Hm Hi Hp x (i & Hi4 & Hx). rewrite disk6_M_form.
  assert (Q : forall c k, 0 < c -> 0 <= c * (x k * x k)) by (intros; nra).
  assert (P : forall c, 0 < c -> 0 < c * (x i * x i)) by (intros; apply Rmult_lt_0_compat; nra).
  pose proof (P _ Hm). pose proof (P _ Hi). pose proof (P _ Hp).
  pose proof (Q _ 0%nat Hm). pose proof (Q _ 1%nat Hm). pose proof (Q _ 2%nat Hm).
  pose proof (Q _ 3%nat Hi). pose proof (Q _ 4%nat Hi). pose proof (Q _ 5%nat Hp).
  clear P Q. do 6 (destruct i as [|i]; [lra|]). lia.
Qed.
(** lateral positions among the 6 dofs of a node *)
Definition lat3 (i : nat) : nat := nth i [0; 1; 3; 4]%nat 0%nat.
Lemma disk6_lat d : meq 4 (fun i j => disk6_M d (lat3 i) (lat3 j)) (disk_M d) /\
  meq 4 (fun i j => disk6_G d (lat3 i) (lat3 j)) (disk_G d).
Proof.
  split; intros i j Hi Hj; unfold lat3;
  do 4 (destruct i as [|i]; [do 4 (destruct j as [|j]; [reflexivity|]); exfalso; lia|]); exfalso; lia.
Qed.

Lemma pmass_M_form p x y : bform 2 (pmass_M p) x y = p_mx p * (x 0%nat * y 0%nat) + p_my p * (x 1%nat * y 1%nat).
Proof. unfold bform, pmass_M, lmat; cbn [sumn nth]. ring. Qed.
Lemma pmass6_M_form p x y : bform 3 (pmass6_M p) x y =
  p_mx p * (x 0%nat * y 0%nat) + p_my p * (x 1%nat * y 1%nat) + p_mz p * (x 2%nat * y 2%nat).
Proof. unfold bform, pmass6_M, lmat; cbn [sumn nth]. ring. Qed.

Lemma pmass_init_spec n m mx my tag :
  pmass_init n m mx my tag =
  match mx, my with
  | Some x, Some y => Ok (mkPMass n x y 0 tag)
  | None, None => match m with Some v => Ok (mkPMass n v v 0 tag) | None => Err TypeError end
  | _, _ => Err TypeError
  end.
Proof. unfold pmass_init, to_float, bind. destruct mx, my, m; reflexivity. Qed.
Lemma pmass6_init_spec n m mx my mz tag :
  pmass6_init n m mx my mz tag =
  match mx, my with
  | Some x, Some y => match mz with Some z => Ok (mkPMass n x y z tag) | None => Err TypeError end
  | None, None => match m with Some v => Ok (mkPMass n v v v tag) | None => Err TypeError end
  | _, _ => Err TypeError
  end.
Proof. unfold pmass6_init, to_float, bind. destruct mx, my, m, mz; reflexivity. Qed.

Lemma disk_geom_pd n mt w i_d o_d tag : 0 < mrho mt -> 0 < w -> 0 <= i_d -> i_d < o_d ->
  pos_def 4 (disk_M (disk_from_geometry n mt w i_d o_d tag)) /\
  pos_def 6 (disk6_M (disk_from_geometry n mt w i_d o_d tag)).
Proof.
  intros Hr Hw Hi Ho.
  assert (A : 0 < o_d ^ 2 - i_d ^ 2) by nra.
  assert (B : 0 < o_d ^ 2 + i_d ^ 2) by nra.
  pose proof PI_RGT_0.
  assert (Hm : 0 < d_m (disk_from_geometry n mt w i_d o_d tag)).
  { unfold disk_from_geometry; cbn [d_m]. apply Rmult_lt_0_compat; [|lra].
    apply Rmult_lt_0_compat; auto. apply Rmult_lt_0_compat; auto. apply Rmult_lt_0_compat; auto. }
  assert (Hp : 0 < d_Ip (disk_from_geometry n mt w i_d o_d tag)).
  { unfold disk_from_geometry in *; cbn [d_m d_Ip] in *. apply Rmult_lt_0_compat; [|lra].
    apply Rmult_lt_0_compat; auto. }
  assert (Hd : 0 < d_Id (disk_from_geometry n mt w i_d o_d tag)).
  { assert (E : d_Id (disk_from_geometry n mt w i_d o_d tag) = 1 / 2 * d_Ip (disk_from_geometry n mt w i_d o_d tag)
      + 1 / 12 * d_m (disk_from_geometry n mt w i_d o_d tag) * w ^ 2) by reflexivity.
    rewrite E. apply Rplus_lt_0_compat; [lra|]. apply Rmult_lt_0_compat; [lra|nra]. }
  split; [apply disk_M_pd|apply disk6_M_pd]; auto.
Qed.

Lemma pmass_init_iff n m mx my tag p :
  (pmass_init n m mx my tag = Ok p <->
     (exists v, m = Some v /\ mx = None /\ my = None /\ p = mkPMass n v v 0 tag) \/
     (exists x y, mx = Some x /\ my = Some y /\ p = mkPMass n x y 0 tag)).
Proof.
  rewrite pmass_init_spec. split.
  - destruct mx, my, m; intros E; inversion E; subst; eauto 10.
  - intros [(v & -> & -> & -> & ->)|(x & y & -> & -> & ->)]; reflexivity.
Qed.
Lemma pmass6_init_iff n m mx my mz tag p :
  (pmass6_init n m mx my mz tag = Ok p <->
     (exists v, m = Some v /\ mx = None /\ my = None /\ p = mkPMass n v v v tag) \/
     (exists x y z, mx = Some x /\ my = Some y /\ mz = Some z /\ p = mkPMass n x y z tag)).
Proof.
  rewrite pmass6_init_spec. split.
  - destruct mx, my, m, mz; intros E; inversion E; subst; eauto 12.
  - intros [(v & -> & -> & -> & ->)|(x & y & z & -> & -> & -> & ->)]; reflexivity.
Qed.
