(** Lemmas for C58: rebuilding a rotor from elements that only differ in what the assembly does not use. *)
From Coq Require Import Reals String Ascii List Bool Arith Lia Lra Sorted.
From Verif Require Import PyBase PyDict MatBase MMaterial MShaft MDisk MBearing MRotor MSave SpecSave LRotor LShare LSave LSave2.
Import ListNotations.
Open Scope list_scope.
Open Scope R_scope.

Definition seal_flag (e : elem) : bool := match e with EBrg _ (RB4 true _) => true | _ => false end.
Record keeps_but_mass (F : elem -> elem) : Prop := {
  kp_n : forall e, el_n (F e) = el_n e; kp_tag : forall e, el_tag (F e) = el_tag e; kp_link : forall e, el_link (F e) = el_link e;
  kp_map : forall e, dof_mapping (F e) = dof_mapping e; kp_dm : forall e, dk_m (F e) = dk_m e; kp_Ip : forall e, dk_Ip (F e) = dk_Ip e;
  kp_L : forall e, sh_L (F e) = sh_L e; kp_cg : forall e, sh_cg (F e) = sh_cg e; kp_m : forall e, sh_m (F e) = sh_m e; kp_Im : forall e, sh_Im (F e) = sh_Im e;
  kp_row : forall e a b, elem_row (F e) a b = elem_row e a b; kp_seal : forall e, seal_flag (F e) = seal_flag e;
  kp_K : forall spl w e, el_K spl w (F e) = el_K spl w e;
  kp_C : forall spl w e, el_C spl w (F e) = el_C spl w e; kp_G : forall spl e, el_G spl (F e) = el_G spl e;
  kp_Ks : forall e, el_Ksdt (F e) = el_Ksdt e }.
Record keeps (F : elem -> elem) : Prop := {
  kp_but_mass :> keeps_but_mass F;
  kp_M : forall spl w e, el_M spl w (F e) = el_M spl w e;
  kp_Ms : forall spl w e, el_M_sync spl w (F e) = el_M_sync spl w e }.

Section Keeps.
Variable F : elem -> elem.
Hypothesis H : keeps_but_mass F.

Lemma map_f {B} (g : elem -> B) l : (forall e, g (F e) = g e) -> map g (map F l) = map g l.
Proof. intros E. rewrite map_map. apply map_ext. auto. Qed.
Lemma insert_f x l : insert_n (F x) (map F l) = map F (insert_n x l).
Proof. induction l as [|y l IH]; simpl; [reflexivity|]. rewrite !(kp_n _ H). destruct (_ <=? _)%nat; simpl; [reflexivity|]. rewrite IH. reflexivity. Qed.
Lemma sort_f l : sort_n (map F l) = map F (sort_n l).
Proof. induction l as [|x l IH]; simpl; [reflexivity|]. rewrite IH, insert_f. reflexivity. Qed.
Lemma existsb_f (f : elem -> bool) l : (forall e, f (F e) = f e) -> existsb f (map F l) = existsb f l.
Proof. intros E. induction l as [|e l IH]; simpl; [reflexivity|]. rewrite E, IH. reflexivity. Qed.
Lemma filter_f (f : elem -> bool) l : (forall e, f (F e) = f e) -> filter f (map F l) = map F (filter f l).
Proof. intros E. induction l as [|e l IH]; simpl; [reflexivity|]. rewrite E, IH. destruct (f e); reflexivity. Qed.
Lemma combine_f {B C} (g : elem * B -> C) l (l' : list B) : (forall e b, g (F e, b) = g (e, b)) -> map g (combine (map F l) l') = map g (combine l l').
Proof. intros E. revert l'. induction l as [|e l IH]; intros [|b l']; simpl; auto. rewrite E, IH. reflexivity. Qed.
Lemma disk_positions_f pos l : disk_positions pos (map F l) = disk_positions pos l.
Proof. induction l as [|e l IH]; simpl; [reflexivity|]. rewrite (kp_n _ H), IH. reflexivity. Qed.
Lemma locate_all_f l : forall df, locate_all df (map F l) = locate_all df l.
Proof.
  induction l as [|e l IH]; intros df; simpl; [reflexivity|].
  assert (E : locate_one df (F e) = locate_one df e) by (unfold locate_one; rewrite (kp_n _ H), (kp_tag _ H); reflexivity). rewrite E.
  destruct (locate_one df e); simpl; auto.
Qed.
Lemma shaft_pos_from_f l : forall n a b, shaft_pos_from n a b (map F l) = shaft_pos_from n a b l.
Proof. induction l as [|e l IH]; intros n a b; simpl; [reflexivity|]. rewrite (kp_n _ H), (kp_L _ H), IH. reflexivity. Qed.
Lemma shaft_pos_f l : shaft_pos (map F l) = shaft_pos l.
Proof. destruct l as [|e l]; simpl; [reflexivity|]. rewrite (kp_n _ H), (kp_L _ H), shaft_pos_from_f. reflexivity. Qed.
Lemma nodes_pos_f l : nodes_pos (map F l) = nodes_pos l.
Proof. unfold nodes_pos. rewrite shaft_pos_f, (map_f el_n) by apply (kp_n _ H). reflexivity. Qed.
Lemma height_ok_f sh z ns : height_ok (map F sh) z ns = height_ok sh z ns.
Proof.
  unfold height_ok. destruct z; [|reflexivity]. destruct ns; [reflexivity|].
  assert (E : forall k, existsb (fun e => Nat.eqb (el_n e) k) (map F sh) = existsb (fun e => Nat.eqb (el_n e) k) sh) by (intros; apply existsb_f; intros; rewrite (kp_n _ H); reflexivity).
  rewrite shaft_pos_f. cbv zeta. destruct (Req_EM_T _ _); [rewrite E; reflexivity|]. destruct (Req_EM_T _ _); destruct (fold_right _ _ _); rewrite ?E; reflexivity.
Qed.
Lemma heights_ok_f sh br df l : heights_ok (map F sh) (map F br) df (map F l) = heights_ok sh br df l.
Proof.
  induction l as [|e l IH]; simpl; [reflexivity|]. rewrite (kp_tag _ H), IH.
  rewrite filter_f by (intros; rewrite (kp_tag _ H); reflexivity). rewrite (map_f el_n) by apply (kp_n _ H). rewrite height_ok_f. reflexivity.
Qed.
Lemma pm_ok_f br pm : pm_ok (map F br) (map F pm) = pm_ok br pm.
Proof. unfold pm_ok. induction pm as [|p pm IH]; simpl; [reflexivity|]. rewrite IH, (kp_n _ H). f_equal. apply existsb_f. intros. rewrite (kp_n _ H). reflexivity. Qed.
Lemma check_f sh dk br : check_number_dof (map F sh) (map F dk) (map F br) = check_number_dof sh dk br.
Proof.
  unfold check_number_dof. destruct sh as [|s sh]; [reflexivity|]. cbn [map]. rewrite (kp_map _ H). cbv zeta.
  change (F s :: map F sh) with (map F (s :: sh)). rewrite !existsb_f by (intros; rewrite (kp_map _ H); reflexivity). reflexivity.
Qed.
Lemma location_f sh dk br pm : location_ok (map F sh) (map F dk) (map F br) (map F pm) = location_ok sh dk br pm.
Proof. unfold location_ok. rewrite !map_app, !(map_f el_n) by apply (kp_n _ H). rewrite (map_f (fun e => S (el_n e))) by (intros; rewrite (kp_n _ H); reflexivity). reflexivity. Qed.
Lemma tags_f sh dk br pm : map el_tag (map F sh ++ map F dk ++ map F br ++ map F pm) = map el_tag (sh ++ dk ++ br ++ pm).
Proof. rewrite !map_app, !(map_f el_tag) by apply (kp_tag _ H). reflexivity. Qed.

Definition f_rotor (r : rotor) : rotor :=
  mkRotor (map F (r_shaft r)) (map F (r_disk r)) (map F (r_brg r)) (map F (r_pm r)) (r_nd r) (r_n_last r) (r_ndof r) (r_nodes_pos r) (r_shaft_pos r)
    (r_m_disks r) (r_m_shaft r) (r_m r) (r_CG r) (r_Ip r).

Lemma init_f s1 d1 b1 p1 s2 d2 b2 p2 : sort_n (mapi mk_shaft 0 s2) = map F (sort_n (mapi mk_shaft 0 s1)) -> mapi mk_disk 0 d2 = map F (mapi mk_disk 0 d1) ->
  sort_n (mapi mk_brg 0 b2) = map F (sort_n (mapi mk_brg 0 b1)) -> mapi mk_pm 0 p2 = map F (mapi mk_pm 0 p1) ->
  rotor_init s2 d2 b2 p2 = res_map f_rotor (rotor_init s1 d1 b1 p1).
Proof.
  intros Hs Hd Hb Hp. unfold rotor_init. rewrite Hs, Hd, Hb, Hp.
  set (sh := sort_n (mapi mk_shaft 0 s1)). set (dk := mapi mk_disk 0 d1). set (br := sort_n (mapi mk_brg 0 b1)). set (pm := mapi mk_pm 0 p1).
  rewrite tags_f. destruct (tags_unique _); [|reflexivity]. cbn [negb]. rewrite check_f. destruct (check_number_dof sh dk br) as [nd|]; [|reflexivity]. cbn [bind].
  rewrite location_f. destruct (location_ok sh dk br pm); [|reflexivity]. cbn [negb]. rewrite nodes_pos_f, disk_positions_f. destruct (disk_positions _ dk) as [dpos|]; [|reflexivity]. cbn [bind]. cbv zeta.
  rewrite shaft_pos_f. rewrite !(map_f sh_m) by apply (kp_m _ H). rewrite !(map_f dk_m) by apply (kp_dm _ H). rewrite !(map_f sh_Im) by apply (kp_Im _ H). rewrite !(map_f dk_Ip) by apply (kp_Ip _ H).
  rewrite !(map_f el_n) by apply (kp_n _ H).
  rewrite !combine_f by (intros; cbn [fst snd]; rewrite ?(kp_dm _ H), ?(kp_m _ H), ?(kp_cg _ H), ?(kp_row _ H); reflexivity).
  assert (S1 : forall l, filter (fun b => match b with EBrg _ (RB4 true _) => false | _ => true end) l = filter (fun e => negb (seal_flag e)) l).
  { intros l. apply filter_ext. intros [| |? [[]|]|]; reflexivity. }
  assert (S2 : forall l, filter (fun b => match b with EBrg _ (RB4 true _) => true | _ => false end) l = filter seal_flag l).
  { intros l. apply filter_ext. intros [| |? [[]|]|]; reflexivity. }
  rewrite !S1, !S2, !filter_f by (intros; rewrite (kp_seal _ H); reflexivity). rewrite !(map_f (fun b => elem_row b None None)) by (intros; apply (kp_row _ H)).
  rewrite locate_all_f. destruct (locate_all _ br) as [df|]; [|reflexivity]. cbn [bind]. rewrite heights_ok_f. destruct (heights_ok _ _ _ _); [|reflexivity]. cbn [bind].
  rewrite pm_ok_f. destruct (pm_ok br pm); [|reflexivity]. cbn [negb res_map]. rewrite map_length.
  replace (match rev (map F sh) with e :: _ => el_n e | [] => 0%nat end) with (match rev sh with e :: _ => el_n e | [] => 0%nat end)
    by (rewrite <- map_rev; destruct (rev sh); cbn [map]; rewrite ?(kp_n _ H); reflexivity). reflexivity.
Qed.

Lemma assemble_f N D f l : (forall e, D (F e) = D e) -> (forall e, f (F e) = f e) -> forall acc, assemble N D f (map F l) acc = assemble N D f l acc.
Proof. intros E1 E2. induction l as [|e l IH]; intros acc; simpl; [reflexivity|]. rewrite E1, E2. destruct (f e); [|reflexivity]. cbn [bind]. destruct (add_at _ _ _ _); simpl; auto. Qed.
Lemma dofs_f r e : r_dofs (f_rotor r) (F e) = r_dofs r e.
Proof. unfold r_dofs, el_dofs, dof_index. cbn [f_rotor r_nd r_n_last]. rewrite (kp_map _ H), (kp_n _ H), (kp_link _ H). reflexivity. Qed.
Lemma f_elements r : r_elements (f_rotor r) = map F (r_elements r).
Proof. unfold r_elements. rewrite !map_app. reflexivity. Qed.
Lemma same_f_but_mass r : (forall spl w ignore, rotor_K spl (f_rotor r) w ignore = rotor_K spl r w ignore) /\ (forall spl w ignore, rotor_C spl (f_rotor r) w ignore = rotor_C spl r w ignore) /\
  (forall spl, rotor_G spl (f_rotor r) = rotor_G spl r) /\ rotor_Ksdt (f_rotor r) = rotor_Ksdt r.
Proof.
  assert (D : forall e, r_dofs r (F e) = r_dofs r e) by (intros; apply (dofs_f r)).
  assert (K : forall ignore l, kept ignore (map F l) = map F (kept ignore l)) by (intros; apply filter_f; intros; rewrite (kp_tag _ H); reflexivity).
  repeat split; intros; unfold rotor_K, rotor_C, rotor_G, rotor_Ksdt; rewrite ?f_elements, ?K; cbn [f_rotor r_ndof r_nd r_shaft r_disk];
    change (r_dofs (f_rotor r)) with (r_dofs r); try (apply assemble_f; [exact D|]; intros; apply H).
  rewrite <- map_app. destruct (Nat.eqb (r_nd r) 6); [|reflexivity]. apply assemble_f; [exact D|]; intros; apply H.
Qed.
End Keeps.
Lemma same_f F (H : keeps F) r : same_rotor r (f_rotor F r).
Proof.
  assert (D : forall e, r_dofs r (F e) = r_dofs r e) by (intros; apply (dofs_f F H r)).
  destruct (same_f_but_mass F H r) as (HK & HC & HG & HS).
  constructor; auto; intros; unfold rotor_M, rotor_M_sync; rewrite ?f_elements; cbn [f_rotor r_ndof];
    change (r_dofs (f_rotor F r)) with (r_dofs r); try (apply assemble_f; [exact D|]; intros; apply H).
Qed.

(** ** the elements as they come back *)
Definition Fb (e : elem) : elem :=
  match e with
  | EShaft six n t s => EShaft six n t (shaft_with s n t)
  | EDisk six t d => EDisk six t (mkDisk (d_n d) (d_m d) (d_Id d) (d_Ip d) (Some t))
  | EBrg t (RB4 false b) => EBrg t (RB4 false (bearing_with b t))
  | EBrg t (RB4 true b) => EBrg t (RB4 true (half (bearing_with b t)))
  | EBrg t (RB6 b) => EBrg t (RB6 (mkBearing6 (bearing_with (b6 b) t) (b6_kzz b) (b6_czz b) (b6_mzz b)))
  | EPm six t p => EPm six t (mkPMass (p_n p) (p_mx p) (p_my p) (p_mz p) (Some t))
  end.
Lemma Fb_keeps : keeps Fb.
Proof. constructor; [constructor|..]; intros; destruct e as [[]| |? [[]|]|]; reflexivity. Qed.
