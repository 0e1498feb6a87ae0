(** C60: rotors that share elements. *)
From Coq Require Import Reals String List Arith Bool Lia Lra Permutation Sorted.
From Verif Require Import PyBase MatBase SpecMat MMaterial MShaft MDisk MBearing MRotor SpecRotor MShare SpecShare LAssembly LRotor LRotor2 LRotorPos LRotor5 LRotor6 LRotor7 LRotorInit LRotorInit2 LRotorInit3 LShaftEx LRotorEx LShare LShare2 LShare3.
Import ListNotations.
Open Scope list_scope.
Open Scope R_scope.

(** Rotor(...) given distinct objects raises exactly when the rotor made of their values does, with the same exception; otherwise the new rotor
    has the matrices and the attributes of the rotor made of their values. *)
Theorem C60_construction : forall h c, distinct c ->
  match rotor_init (shafts_of h c) (disks_of h c) (brgs_of h c) (pms_of h c) with
  | Err e => snd (build h c) = Err e
  | Ok r => exists hr, snd (build h c) = Ok hr /\ behaves_as (fst (build h c)) hr r
  end.
Proof.
  intros h c D. destruct (rotor_init _ _ _ _) as [r|e] eqn:E; [apply build_distinct; auto|]. rewrite build_eq. cbn [snd]. destruct (outcome_distinct h c D) as [O _]. rewrite O, E. reflexivity.
Qed.
(** the same object named twice is always refused, whatever its tag *)
Theorem C60_named_twice : forall h c, ~ distinct c -> snd (build h c) = Err ValueError.
Proof. exact twice_err. Qed.

(** What a call writes, also when it raises. Shaft elements: nothing. Objects that are not named: nothing. Objects with a tag keep all their
    attributes but the dof numbers. An object without a tag gets the default tag of its first place in the list, and nothing else changes. *)
Theorem C60_effects : forall h c, let h' := fst (build h c) in
  h_sh h' = h_sh h /\
  (forall x, ~ In x (c_dk c) -> h_dk h' x = h_dk h x) /\ (forall x, ~ In x (c_br c) -> h_br h' x = h_br h x) /\ (forall x, ~ In x (c_pm c) -> h_pm h' x = h_pm h x) /\
  (forall x, d_tag (rd_d (fst (h_dk h x))) <> None -> fst (h_dk h' x) = fst (h_dk h x)) /\
  (forall x, b_tag (brg_base (fst (h_br h x))) <> None -> fst (h_br h' x) = fst (h_br h x)) /\
  (forall x, p_tag (rp_p (fst (h_pm h x))) <> None -> fst (h_pm h' x) = fst (h_pm h x)) /\
  (forall x l1 l2 d six, c_dk c = l1 ++ x :: l2 -> ~ In x l1 -> fst (h_dk h x) = mkRDisk six d -> d_tag d = None ->
     fst (h_dk h' x) = mkRDisk six (mkDisk (d_n d) (d_m d) (d_Id d) (d_Ip d) (Some ("Disk " ++ str (length l1))%string))) /\
  (forall x l1 l2 p six, c_pm c = l1 ++ x :: l2 -> ~ In x l1 -> fst (h_pm h x) = mkRPmass six p -> p_tag p = None ->
     fst (h_pm h' x) = mkRPmass six (mkPMass (p_n p) (p_mx p) (p_my p) (p_mz p) (Some ("Point Mass " ++ str (length l1))%string))) /\
  (forall x l1 l2 b s, c_br c = l1 ++ x :: l2 -> ~ In x l1 -> fst (h_br h x) = RB4 s b -> b_tag b = None ->
     fst (h_br h' x) = RB4 s (mkBearing (b_n b) (b_n_link b) (Some ((if s then "Seal " else "Bearing ") ++ str (length l1))%string) (b_color b) (b_scale_factor b) (b_frequency b) (b_coef b))) /\
  (forall x l1 l2 b kz cz mz, c_br c = l1 ++ x :: l2 -> ~ In x l1 -> fst (h_br h x) = RB6 (mkBearing6 b kz cz mz) -> b_tag b = None ->
     fst (h_br h' x) = RB6 (mkBearing6 (mkBearing (b_n b) (b_n_link b) (Some ("Bearing " ++ str (length l1))%string) (b_color b) (b_scale_factor b) (b_frequency b) (b_coef b)) kz cz mz)).
Proof.
  intros h c h'. destruct (build_tagged h c) as (B1 & B2 & B3). unfold h' in *. split; [apply build_sh|].
  assert (P : forall {A} (p q : A * dofs), fst p = fst q -> snd p = snd q -> p = q) by (intros A [a b] [a' b']; cbn; congruence).
  assert (NI : forall x l, ~ In x l -> existsb (Nat.eqb x) l = false) by (intros x l H; destruct (existsb _ _) eqn:E; [apply existsb_eqb in E; tauto|reflexivity]).
  assert (OUT : forall A (k : kind A) o l st x, ~ In x l -> numbered k o l (tag_from k 0 l st) x = st x).
  { intros A k o l st x H. apply P; [rewrite numbered_fst, tag_out by auto; reflexivity|]. rewrite numbered_snd, NI, tag_out by auto. destruct o as [[]|]; reflexivity. }
  split; [|split; [|split; [|split; [exact B1|split; [exact B2|split; [exact B3|]]]]]].
  - intros x H. rewrite build_eq. cbn [fst h_dk]. apply OUT; auto.
  - intros x H. rewrite build_eq. cbn [fst h_br]. apply OUT; auto.
  - intros x H. rewrite build_eq. cbn [fst h_pm]. apply OUT; auto.
  - rewrite build_eq. cbn [fst h_dk h_pm h_br]. split; [|split; [|split]].
    + intros x l1 l2 d six E N V T. rewrite numbered_fst. unfold t_dk. rewrite E, (tag_first disks_kind disks_ok) by auto. unfold tagged. rewrite V. cbn. rewrite T. reflexivity.
    + intros x l1 l2 d six E N V T. rewrite numbered_fst. unfold t_pm. rewrite E, (tag_first pms_kind pms_ok) by auto. unfold tagged. rewrite V. cbn. rewrite T. reflexivity.
    + intros x l1 l2 b s E N V T. rewrite numbered_fst. unfold t_br. rewrite E, (tag_first brgs_kind brgs_ok) by auto. unfold tagged. rewrite V. cbn. rewrite T. destruct s; reflexivity.
    + intros x l1 l2 b kz cz mz E N V T. rewrite numbered_fst. unfold t_br. rewrite E, (tag_first brgs_kind brgs_ok) by auto. unfold tagged. rewrite V. cbn. rewrite T. reflexivity.
Qed.

(** A rotor keeps its matrices through any sequence of later constructions that leave the shared elements in their place. *)
Theorem C60_earlier_rotors : forall h c hr cs, snd (build h c) = Ok hr -> Forall (fits (fst (build h c)) hr) cs ->
  behaves_as (run_calls (fst (build h c)) cs) hr (hr_val hr) /\ behaves_as (fst (build h c)) hr (hr_val hr).
Proof.
  intros h c hr cs H F. split; [|apply behaves_value; auto]. apply (behaves _ _ _ (fun e => e)); auto. rewrite later_calls; auto using built_settled. apply elements_built; auto.
Qed.
(** Objects that have tags can be used again and again: what a call returns does not depend on the calls made before it. *)
Theorem C60_tagged_reuse : forall h c cs, all_tagged h c -> snd (build (run_calls h cs) c) = snd (build h c).
Proof. intros h c cs T. destruct (runs_tagged cs h) as (R1 & R2 & R3 & R4). apply all_tagged_outcome; auto. Qed.
(** The same call, made again later, returns the same as the first time, tags or no tags. *)
Theorem C60_again : forall h c cs, snd (build (run_calls (fst (build h c)) cs) c) = snd (build h c).
Proof. exact again. Qed.

(** Default tags stick: a disk without tag that was used once, in any call, and is used again behind another disk without tag at its old place,
    is refused. *)
Theorem C60_default_tag_sticks : forall h c1 c2 x y a1 b1 a2 b2, c_dk c1 = a1 ++ x :: b1 -> ~ In x a1 -> c_dk c2 = a2 ++ y :: b2 -> ~ In y a2 -> length a1 = length a2 ->
  In x (c_dk c2) -> x <> y -> ~ In y (c_dk c1) -> d_tag (rd_d (fst (h_dk h x))) = None -> d_tag (rd_d (fst (h_dk h y))) = None ->
  snd (build (fst (build h c1)) c2) = Err ValueError.
Proof.
  intros h c1 c2 x y a1 b1 a2 b2 E1 N1 E2 N2 EL I NE NY Tx Ty. set (h1 := fst (build h c1)).
  assert (X1 : d_tag (rd_d (fst (h_dk h1 x))) = Some ("Disk " ++ str (length a1))%string).
  { unfold h1. destruct (C60_effects h c1) as (_ & _ & _ & _ & _ & _ & _ & W & _). destruct (fst (h_dk h x)) as [six d] eqn:V. rewrite (W x a1 b1 d six E1 N1 V Tx). reflexivity. }
  assert (Y1 : h_dk h1 y = h_dk h y) by (unfold h1; apply C60_effects; auto).
  rewrite build_eq. cbn [snd]. destruct (bad_tags h1 c2) as [-> _]; [|reflexivity]. intros Q. destruct (tag_list_parts _ _ Q) as (D & _).
  assert (Vx : el_tag (mk_disk 0 (fst (t_dk h1 c2 x))) = ("Disk " ++ str (length a1))%string).
  { unfold t_dk. rewrite (tag_keeps disks_kind) by (cbn [disks_kind k_tag]; congruence). apply (ko_tag disks_ok 0%nat). exact X1. }
  assert (Vy : el_tag (mk_disk 0 (fst (t_dk h1 c2 y))) = ("Disk " ++ str (length a1))%string).
  { apply (ko_tag disks_ok 0%nat). unfold t_dk. rewrite E2, (tag_first disks_kind disks_ok) by auto. rewrite Y1. unfold tagged. change (k_tag disks_kind (fst (h_dk h y))) with (d_tag (rd_d (fst (h_dk h y)))). rewrite Ty. rewrite EL. reflexivity. }
  assert (Iy : In y (c_dk c2)) by (rewrite E2; apply in_or_app; right; left; auto).
  clear - D Vx Vy I Iy NE. rewrite <- Vy in Vx. clear Vy. induction (c_dk c2) as [|z l IH]; [destruct I|]. cbn [map] in D. apply NoDup_cons_iff in D as [D1 D2].
  destruct I as [->|I], Iy as [->|Iy]; [congruence| | |auto].
  - apply D1. rewrite Vx. apply (in_map (fun x => el_tag (mk_disk 0 (fst (t_dk h1 c2 x))))). exact Iy.
  - apply D1. rewrite <- Vx. apply (in_map (fun x => el_tag (mk_disk 0 (fst (t_dk h1 c2 x))))). exact I.
Qed.

(** ** Cases *)
Definition sh0 (x : ref) : rshaft := ex_rshaft false x (match x with O => "s0" | _ => "s1" end)%string.
Definition plain_disk : rdisk := mkRDisk false (mkDisk 1 5 1 2 None).
Definition br0 (x : ref) : rbrg :=
  match x with
  | 0 => ex_brg false 0 (Some 3%nat) "b0" | 1 => ex_brg false 3 None "b1" | 2 => ex_brg false 0 (Some 2%nat) "b2" | 3 => ex_brg false 2 None "b3"
  | 4 => ex_brg false 1 (Some 3%nat) "b4" | _ => RB4 false (mkBearing 0 None None "#355d7a" 1 None ex_coef) end%string%nat.
Definition pm0 (x : ref) : rpmass := match x with O => ex_pm false 3 "p0" | _ => ex_pm false 2 "p1" end%string.
Definition heap0 : heap := mkHeap sh0 (fun _ => (plain_disk, None)) (fun x => (br0 x, None)) (fun x => (pm0 x, None)).

Ltac six := exists false; repeat split; intros x Hx; cbn in Hx; repeat destruct Hx as [<-|Hx]; try contradiction; reflexivity.
Ltac all_in := repeat match goal with H : In _ _ |- _ => cbn in H; repeat destruct H as [<-|H]; try contradiction end.
(** two disks without tags, the second call puts the old one in second place *)
Definition callA : call := mkCall [0; 1]%nat [0]%nat [5]%nat [].
Definition callB : call := mkCall [0; 1]%nat [1; 0]%nat [5]%nat [].
Lemma callB_ok : final_ok (shafts_of heap0 callB) (disks_of heap0 callB) (brgs_of heap0 callB) (pms_of heap0 callB) 1.
Proof.
  constructor.
  - apply tags_unique_iff. vm_compute. reflexivity.
  - six.
  - intros e H. cbn in H. repeat destruct H as [<-|H]; try contradiction; cbn; lia.
  - intros [|[|k]] Hk; [eexists; split; [left; reflexivity|reflexivity]|eexists; split; [right; left; reflexivity|reflexivity]|lia].
  - intros e e' H H' E. cbn in H, H'. repeat destruct H as [<-|H]; repeat destruct H' as [<-|H']; try contradiction; reflexivity.
  - intros s H. cbn in H. repeat destruct H as [<-|H]; try contradiction; cbn; lra.
  - intros s H. cbn in H. repeat destruct H as [<-|H]; try contradiction; cbn; lia.
  - cbn. repeat constructor; simpl; tauto.
  - intros b H. cbn in H. repeat destruct H as [<-|H]; try contradiction. left. cbn. lia.
  - intros b m H. cbn in H. repeat destruct H as [<-|H]; try contradiction. discriminate.
  - intros p H. destruct H.
Qed.
(** it is false that a call returns the same whatever was built before: here the call succeeds on new objects and raises after another one *)
Theorem C60_reuse_refuted : (exists hr, snd (build heap0 callB) = Ok hr) /\ snd (build (fst (build heap0 callA)) callB) = Err ValueError.
Proof.
  split.
  - destruct (init_final _ _ _ _ _ callB_ok) as (r & Hr & _). pose proof (C60_construction heap0 callB) as C. rewrite Hr in C. destruct C as (hr & B & _); [|exists hr; exact B].
    repeat split; cbn; repeat constructor; simpl; try tauto; intros [|[]]; discriminate.
  - apply (C60_default_tag_sticks heap0 callA callB 0%nat 1%nat [] [] [] [0%nat]); try reflexivity; cbn; try tauto; try discriminate. intros [|[]]; discriminate.
Qed.

(** two rotors of different length on the same flexible support *)
Definition long : call := mkCall [0; 1]%nat [] [0; 1]%nat [0]%nat.
Definition short : call := mkCall [0]%nat [] [2; 3; 4; 1]%nat [1; 0]%nat.
Lemma long_ok : final_ok (shafts_of heap0 long) (disks_of heap0 long) (brgs_of heap0 long) (pms_of heap0 long) 1.
Proof.
  constructor.
  - apply tags_unique_iff. vm_compute. reflexivity.
  - six.
  - intros e H. cbn in H. repeat destruct H as [<-|H]; try contradiction; cbn; lia.
  - intros [|[|k]] Hk; [eexists; split; [left; reflexivity|reflexivity]|eexists; split; [right; left; reflexivity|reflexivity]|lia].
  - intros e e' H H' E. cbn in H, H'. repeat destruct H as [<-|H]; repeat destruct H' as [<-|H']; try contradiction; reflexivity.
  - intros s H. cbn in H. repeat destruct H as [<-|H]; try contradiction; cbn; lra.
  - intros s H. destruct H.
  - cbn. repeat constructor; simpl; intuition discriminate.
  - intros b H. cbn in H. destruct H as [<-|[<-|[]]]; [left; cbn; lia|right]. split; [exists (pm0 0%nat); split; [left; reflexivity|reflexivity]|exists (br0 0%nat); split; [left; reflexivity|reflexivity]].
  - intros b m H. cbn in H. repeat destruct H as [<-|H]; try contradiction; cbn; intros [= <-]; lia.
  - intros p H. cbn in H. destruct H as [<-|[]]. exists (br0 1%nat). split; [right; left; reflexivity|reflexivity].
Qed.
Lemma short_ok : final_ok (shafts_of heap0 short) (disks_of heap0 short) (brgs_of heap0 short) (pms_of heap0 short) 0.
Proof.
  constructor.
  - apply tags_unique_iff. vm_compute. reflexivity.
  - six.
  - intros e H. cbn in H. repeat destruct H as [<-|H]; try contradiction; cbn; lia.
  - intros [|k] Hk; [eexists; split; [left; reflexivity|reflexivity]|lia].
  - intros e e' H H' E. cbn in H, H'. repeat destruct H as [<-|H]; repeat destruct H' as [<-|H']; try contradiction; reflexivity.
  - intros s H. cbn in H. repeat destruct H as [<-|H]; try contradiction; cbn; lra.
  - intros s H. destruct H.
  - cbn. repeat constructor; simpl; intuition discriminate.
  - intros b H. cbn in H. destruct H as [<-|[<-|[<-|[<-|[]]]]]; [left; cbn; lia|right|left; cbn; lia|right].
    + split; [exists (pm0 1%nat); split; [left; reflexivity|reflexivity]|exists (br0 2%nat); split; [left; reflexivity|reflexivity]].
    + split; [exists (pm0 0%nat); split; [right; left; reflexivity|reflexivity]|exists (br0 4%nat); split; [right; right; left; reflexivity|reflexivity]].
  - intros b m H. cbn in H. repeat destruct H as [<-|H]; try contradiction; cbn; intros [= <-]; lia.
  - intros p H. cbn in H. destruct H as [<-|[<-|[]]]; [exists (br0 3%nat)|exists (br0 1%nat)]; split; [right; left; reflexivity|reflexivity|right; right; right; left; reflexivity|reflexivity].
Qed.
Lemma tagged_short : all_tagged heap0 short.
Proof. repeat split; intros x H; cbn in H; repeat destruct H as [<-|H]; try contradiction; cbn; discriminate. Qed.
Lemma call_ok c last : distinct c -> final_ok (shafts_of heap0 c) (disks_of heap0 c) (brgs_of heap0 c) (pms_of heap0 c) last -> exists hr, snd (build heap0 c) = Ok hr.
Proof. intros D F. destruct (init_final _ _ _ _ _ F) as (r & Hr & _). pose proof (C60_construction heap0 c D) as C. rewrite Hr in C. destruct C as (hr & B & _). eauto. Qed.
Lemma distinct_long : distinct long.
Proof. repeat split; cbn; repeat constructor; simpl; intuition discriminate. Qed.
Lemma distinct_short : distinct short.
Proof. repeat split; cbn; repeat constructor; simpl; intuition discriminate. Qed.
(** it is false that a rotor keeps its matrices: building the short rotor moves the support mass inside the long one, from its own node 3
    to the rotations of node 2 *)
Theorem C60_earlier_rotors_refuted : forall spl, let h1 := fst (build heap0 long) in let h2 := fst (build h1 short) in
  exists hr hr2 M1 M2, snd (build heap0 long) = Ok hr /\ snd (build h1 short) = Ok hr2 /\ now_M spl h1 hr None = Ok M1 /\ now_M spl h2 hr None = Ok M2 /\
  M1 12%nat 12%nat = 3 /\ M2 12%nat 12%nat = 0 /\ M2 10%nat 10%nat = M1 10%nat 10%nat + 3.
Proof.
  intros spl h1 h2. destruct (call_ok long 1 distinct_long long_ok) as (hr & B1). destruct (call_ok short 0 distinct_short short_ok) as (hr2 & B2).
  assert (B2' : snd (build h1 short) = Ok hr2) by (rewrite <- B2; apply (C60_tagged_reuse heap0 short [long]); apply tagged_short).
  exists hr, hr2. pose proof (elements_built _ _ _ B1) as E1. fold h1 in E1.
  destruct (build_inv _ _ _ B1) as (r & O & Eh & RE). pose proof (reach_facts _ _ _ _ RE) as F.
  assert (L : r_n_last r = 1%nat) by (rewrite (rc_last _ _ _ _ F); reflexivity). assert (D : r_nd r = 4%nat) by (rewrite (rc_sh _ _ _ _ F (sh0 0%nat)); [reflexivity|left; reflexivity]).
  destruct (build_inv _ _ _ B2') as (r2 & O2 & _ & RE2). pose proof (reach_facts _ _ _ _ RE2) as F2.
  assert (SH : shafts_of h1 short = [sh0 0%nat]) by (unfold shafts_of, h1; rewrite build_sh; reflexivity).
  assert (L2 : r_n_last r2 = 0%nat) by (rewrite (rc_last _ _ _ _ F2), SH; reflexivity). assert (D2 : r_nd r2 = 4%nat) by (rewrite (rc_sh _ _ _ _ F2 (sh0 0%nat)); [reflexivity|rewrite SH; left; reflexivity]).
  assert (N : r_ndof r = 14%nat).
  { pose proof (rotor_facts _ _ _ _ _ O) as RF. rewrite (rf_ndof _ RF), D, L. destruct (init_lists _ _ _ _ _ O) as (_ & _ & _ & Ep). rewrite Ep, LRotor.mapi_length. reflexivity. }
  destruct (init_lists _ _ _ _ _ O) as (Es & _ & _ & _).
  assert (S1 : r_shaft r = [mk_shaft 0 (sh0 0%nat); mk_shaft 1 (sh0 1%nat)]) by (rewrite Es; reflexivity).
  assert (T1 : h1 = mkHeap sh0 (numbered disks_kind (Some (4, 1)%nat) [] (t_dk heap0 long)) (numbered brgs_kind (Some (4, 1)%nat) [0; 1]%nat (t_br heap0 long)) (numbered pms_kind (Some (4, 1)%nat) [0]%nat (t_pm heap0 long))).
  { unfold h1. rewrite build_eq, RE, L, D. reflexivity. }
  assert (T2 : h2 = mkHeap sh0 (numbered disks_kind (Some (4, 0)%nat) [] (t_dk h1 short)) (numbered brgs_kind (Some (4, 0)%nat) [2; 3; 4; 1]%nat (t_br h1 short)) (numbered pms_kind (Some (4, 0)%nat) [1; 0]%nat (t_pm h1 short))).
  { unfold h2. rewrite build_eq, RE2, L2, D2. cbn [fst]. unfold h1 at 1. rewrite build_sh. reflexivity. }
  assert (H1 : h_elements h1 hr = [(mk_shaft 0 (sh0 0%nat), Some [0; 1; 2; 3; 4; 5; 6; 7]%nat); (mk_shaft 1 (sh0 1%nat), Some [4; 5; 6; 7; 8; 9; 10; 11]%nat);
    (mk_brg 0 (br0 0%nat), Some [0; 1; 12; 13]%nat); (mk_brg 0 (br0 1%nat), Some [12; 13]%nat); (mk_pm 0 (pm0 0%nat), Some [12; 13]%nat)]).
  { rewrite T1, Eh. unfold h_elements. cbn [hr_val hr_dk hr_br hr_pm]. rewrite S1. unfold r_dofs. rewrite L, D. reflexivity. }
  assert (H2 : h_elements h2 hr = [(mk_shaft 0 (sh0 0%nat), Some [0; 1; 2; 3; 4; 5; 6; 7]%nat); (mk_shaft 1 (sh0 1%nat), Some [4; 5; 6; 7; 8; 9; 10; 11]%nat);
    (mk_brg 0 (br0 0%nat), Some [0; 1; 12; 13]%nat); (mk_brg 0 (br0 1%nat), Some [10; 11]%nat); (mk_pm 0 (pm0 0%nat), Some [10; 11]%nat)]).
  { rewrite T2, T1, Eh. unfold h_elements. cbn [hr_val hr_dk hr_br hr_pm]. rewrite S1. unfold r_dofs. rewrite L, D. reflexivity. }
  assert (V : hr_val hr = r) by (rewrite Eh; reflexivity).
  eexists. eexists. split; [exact B1|]. split; [exact B2'|]. unfold now_M. rewrite V, N, H1, H2.
  split; [reflexivity|]. split; [reflexivity|].
  cbn -[shaft_M bearing_M]. unfold mzero. repeat split; lra.
Qed.

(** the hypotheses of the positive theorem: the same two rotors with the support of the long one used only once more in a rotor of its length *)
Example C60_instance : exists hr, snd (build heap0 long) = Ok hr /\ Forall (fits (fst (build heap0 long)) hr) [long; mkCall [0; 1]%nat [] [2; 3]%nat [1]%nat; mkCall [0]%nat [] [5]%nat []] /\ hr_br hr = [0; 1]%nat /\ hr_pm hr = [0]%nat.
Proof.
  destruct (call_ok long 1 distinct_long long_ok) as (hr & B1). exists hr. split; [exact B1|].
  destruct (build_inv _ _ _ B1) as (r & O & Eh & RE). pose proof (reach_facts _ _ _ _ RE) as F.
  assert (L : r_n_last r = 1%nat) by (rewrite (rc_last _ _ _ _ F); reflexivity). assert (D : r_nd r = 4%nat) by (rewrite (rc_sh _ _ _ _ F (sh0 0%nat)); [reflexivity|left; reflexivity]).
  assert (EB : hr_br hr = [0; 1]%nat) by (rewrite Eh; reflexivity). assert (EP : hr_pm hr = [0]%nat) by (rewrite Eh; reflexivity). split; [|split; auto].
  assert (SH : forall c, shafts_of (fst (build heap0 long)) c = map sh0 (c_sh c)) by (intros; unfold shafts_of; rewrite build_sh; reflexivity).
  assert (G : forall n, near hr (map sh0 [0; 1]%nat) n) by (intros n; left; rewrite Eh; cbn [hr_val]; rewrite L; reflexivity).
  assert (K : forall s, In s (map sh0 [0; 1]%nat) -> r_nd (hr_val hr) = dofs_per_node (rs_six s)) by (intros s Hs; rewrite Eh; cbn [hr_val]; rewrite D; cbn in Hs; repeat destruct Hs as [<-|Hs]; try contradiction; reflexivity).
  apply Forall_cons; [|apply Forall_cons; [|apply Forall_cons; [|apply Forall_nil]]]; constructor; intros x Hx Hc; rewrite SH; cbn [long c_sh c_br c_pm] in *; try (split; intros; auto; fail); exfalso; rewrite ?EB, ?EP in Hx; cbn in Hx, Hc; intuition congruence.
Qed.

Print Assumptions C60_construction.
Print Assumptions C60_named_twice.
Print Assumptions C60_effects.
Print Assumptions C60_earlier_rotors.
Print Assumptions C60_tagged_reuse.
Print Assumptions C60_again.
Print Assumptions C60_default_tag_sticks.
Print Assumptions C60_reuse_refuted.
Print Assumptions C60_earlier_rotors_refuted.
