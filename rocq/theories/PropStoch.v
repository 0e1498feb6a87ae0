(** C47: random elements and random rotors (ross/stochastic). *)
From Coq Require Import Reals List String Ascii Bool Arith Lia Lra.
From Coquelicot Require Import Complex.
From Verif Require Import PyBase PyDict MatBase CMat MMaterial MShaft MDisk MBearing MRotor MDynamics MStoch SpecStoch LStoch LStoch2 LStoch3 LRotorEx.
Import ListNotations.
Open Scope string_scope.
Open Scope list_scope.
Open Scope R_scope.
Local Notation length := List.length.

Lemma samples_iff {A} (c : pyclass A) e els more : c_sig c = map fst (st_attrs e) ++ more -> (st_list c e = Ok els <-> samples c e els).
Proof.
  intros S. split.
  - intros H. destruct (list_samples c e els more S H) as (k & rest & v & n & H1 & H2 & H3 & H4 & H5). subst n. exists k, rest, v. auto.
  - intros (k & rest & v & H1 & H2 & H3 & H4). eapply list_samples_conv; eauto.
Qed.
Lemma st_set_keys e k v e' : st_set e k v = Ok e' -> map fst (st_attrs e') = map fst (st_attrs e) /\ st_random e' = st_random e.
Proof.
  unfold st_set, dmem. destruct (dget (st_attrs e) k) eqn:E; [|discriminate]. injection 1 as <-. simpl. split; auto. clear -E. revert E.
  induction (st_attrs e) as [|[k' v'] l IH]; simpl; [discriminate|]. destruct (String.eqb k k') eqn:Q; simpl; [apply String.eqb_eq in Q; subst; auto|]. intros H. f_equal. auto.
Qed.
(** elements reached from a new one by any number of assignments e[name] = value *)
Inductive reached (e0 : stoch) : stoch -> Prop :=
| reached_new : reached e0 e0
| reached_set e k v e' : reached e0 e -> st_set e k v = Ok e' -> reached e0 e'.
Lemma reached_keys e0 e : reached e0 e -> map fst (st_attrs e) = map fst (st_attrs e0) /\ st_random e = st_random e0.
Proof. induction 1 as [|e k v e' H (I & J) E]; auto. apply st_set_keys in E as (-> & ->). auto. Qed.

(** ST_Material, ST_PointMass and ST_ShaftElement, also after attributes were assigned: iterating gives exactly the samples *)
Theorem C47_material_samples : forall name rho E G_s Poisson color e0 e els,
  st_material name rho E G_s Poisson color = Ok e0 -> reached e0 e -> (st_list material_class e = Ok els <-> samples material_class e els).
Proof.
  intros * H R. apply reached_keys in R as (K & _). apply samples_iff with (more := []). rewrite K. unfold st_material in H.
  destruct (has_space name); [discriminate|]. destruct (negb _); [discriminate|]. injection H as <-. reflexivity.
Qed.
Theorem C47_point_mass_samples : forall n m mx my tag color rnd e els,
  reached (st_pmass n m mx my tag color rnd) e -> (st_list pmass_class e = Ok els <-> samples pmass_class e els).
Proof. intros * R. apply reached_keys in R as (K & _). apply samples_iff with (more := []). rewrite K. reflexivity. Qed.
Theorem C47_shaft_samples : forall a e0 e els, st_shaft a = Ok e0 -> reached e0 e -> (st_list shaft_class e = Ok els <-> samples shaft_class e els).
Proof.
  intros a e0 e els H R. apply reached_keys in R as (K & _). apply samples_iff with (more := ["alpha"; "beta"]). rewrite K. unfold st_shaft in H. ob H. ob H. ob H.
  injection H as <-. reflexivity.
Qed.

(** which attributes of an ST_Material are random: those given as lists *)
Theorem C47_material_random : forall name rho E G_s Poisson color e, st_material name rho E G_s Poisson color = Ok e ->
  exists rnd, st_random e = Some rnd /\ NoDup rnd /\
    forall k, In k rnd <-> exists v, In (k, v) [("rho", rho); ("E", E); ("G_s", G_s); ("Poisson", Poisson)] /\ exists n, entries v n.
Proof.
  intros * H. unfold st_material in H. destruct (has_space name); [discriminate|]. destruct (negb _); [discriminate|]. match type of H with Ok ?x = Ok _ => assert (Q : e = x) by congruence end. rewrite Q. eexists. split; [cbv [st_random]; reflexivity|]. clear. split.
  - cbn [filter snd]. destruct (iterable rho), (iterable E), (iterable G_s), (iterable Poisson); cbn [map fst]; repeat constructor; simpl; intuition discriminate.
  - intros k. rewrite in_map_iff. split.
    + intros ([k' v] & <- & I). apply filter_In in I as (I & T). exists v. split; [exact I|]. destruct v; simpl in T; try discriminate; simpl; eauto.
    + intros (v & I & n & N). exists (k, v). split; auto. apply filter_In. split; auto. destruct v; simpl in N; try tauto; reflexivity.
Qed.

(** a random attribute with fewer entries than the first one makes the iteration fail *)
Theorem C47_short_list : forall A (c : pyclass A) e els k rest v w j, samples c e els -> st_random e = Some (k :: rest) -> dget (st_attrs e) k = Some v -> entries v (length els) ->
  In (j, w) (st_attrs e) -> In j (k :: rest) -> forall n, entries w n -> (length els <= n)%nat.
Proof.
  intros A c e els k rest v w j (k' & rest' & v' & R & G & N & H) R' G' N' I J n Nw. rewrite R in R'. injection R' as -> ->.
  destruct (length els) as [|m] eqn:L; [lia|].
  destruct (nth_error els m) as [x|] eqn:X; [|apply nth_error_None in X; lia]. destruct (H m x X) as (kw & K & _).
  assert (P : exists y, entry w m y).
  { clear -K I J. unfold sample_of in K. induction K as [|a b l l' (E & H1 & _) Hl IH]; [destruct I|]. destruct I as [->|I]; auto. simpl in H1. eauto. }
  destruct P as [y P]. destruct w as [| | | |s| |l]; simpl in *; try tauto.
  - destruct P as (ch & P & _). clear -P Nw. subst n. revert m P. induction s as [|a s IH]; intros [|m] P; simpl in *; try discriminate; [lia|]. apply IH in P. lia.
  - assert (nth_error l m <> None) by congruence. apply nth_error_Some in H0. lia.
Qed.
(** but a longer one is cut without notice: two masses declared random with 2 and 3 entries give 2 samples *)
Theorem C47_equal_lengths_refuted : exists e els w, st_list pmass_class e = Ok els /\ In ("my", w) (st_attrs e) /\ st_random e = Some ["mx"; "my"] /\ entries w 3 /\ length els = 2%nat.
Proof.
  exists (st_pmass (SInt 0) SNone (SList [SNum 1; SNum 2]) (SList [SNum 3; SNum 4; SNum 5]) SNone (SStr "c") (Some ["mx"; "my"])).
  exists [mkPMass 0 1 3 0 None; mkPMass 0 2 4 0 None]. eexists. split; [reflexivity|]. split; [right; right; right; left; reflexivity|]. repeat split.
Qed.
(** and the number of samples depends on the order of is_random: in the other order the same lists are refused *)
Example C47_order_instance :
  st_list pmass_class (st_pmass (SInt 0) SNone (SList [SNum 1; SNum 2]) (SList [SNum 3; SNum 4; SNum 5]) SNone (SStr "c") (Some ["my"; "mx"])) = Err IndexError.
Proof. reflexivity. Qed.
Example C47_point_mass_instance :
  st_list pmass_class (st_pmass (SInt 4) SNone (SList [SNum 1; SNum 2]) (SNum 7) (SStr "t") (SStr "c") (Some ["mx"])) = Ok [mkPMass 4 1 7 0 (Some "t"); mkPMass 4 2 7 0 (Some "t")].
Proof. reflexivity. Qed.
Example C47_material_instance : exists e, st_material "steel" (SList [SNum 1; SNum 2]) SNone (SNum 3) (SList [SNum 4; SNum 5]) "c" = Ok e /\ st_random e = Some ["rho"; "Poisson"] /\
  st_list material_class e = Ok [mkMaterial "steel" 1 (3 * (2 * (1 + 4))) 3 4 "c"; mkMaterial "steel" 2 (3 * (2 * (1 + 5))) 3 5 "c"].
Proof. eexists. split; [reflexivity|]. split; reflexivity. Qed.

(** ** disks: the masses are those of the samples; the colour is lost and becomes the scale factor *)
Theorem C47_disk_samples : forall n m Id Ip tag color rnd e els, reached (st_disk n m Id Ip tag color rnd) e -> st_list disk_class e = Ok els ->
  exists k rest v, st_random e = Some (k :: rest) /\ dget (st_attrs e) k = Some v /\ entries v (length els) /\
    forall i x, nth_error els i = Some x -> exists kw y, sample_of (st_attrs e) (k :: rest) i kw /\ call_by_keyword disk_class kw = Ok y /\
      dr_disk x = dr_disk y /\ dr_color x = SStr "Firebrick" /\ dget kw "color" = Some (dr_scale x).
Proof.
  intros * R H. apply reached_keys in R as (K & _). unfold st_list, random_rows in H. ob H. ob E. destruct a0 as [rn v]. ob E. simpl in E1. apply first_random_ok in E0 as (k & rest & -> & Rn & G).
  simpl in E. apply mapM_F2 in E. apply mapM_F2 in H. apply F2_seq in E as (L & E). exists k, rest, v. split; auto. split; auto. apply sv_len_iff in E1.
  split; [rewrite <- (F2_len _ _ _ H), L; auto|]. intros i x Hx. destruct (F2_nth' _ _ _ H i x Hx) as (row & Hr & Hc). specialize (E i row Hr). apply row_sample in E as (Lr & Sr).
  rewrite K in Sr. exists (combine (map fst (st_attrs (st_disk n m Id Ip tag color rnd))) row). rewrite <- (map_length fst), K in Lr. simpl in Lr.
  destruct row as [|v1 [|v2 [|v3 [|v4 [|v5 [|v6 [|v7 row]]]]]]]; try discriminate. clear -Hc Sr.
  assert (Q : call_by_keyword disk_class (combine (map fst (st_attrs (st_disk n m Id Ip tag color rnd))) [v1; v2; v3; v4; v5; v6]) = Ok (mkDrawn (dr_disk x) (SNum 1) v6) /\ dr_color x = SStr "Firebrick" /\ dr_scale x = v6).
  { unfold call in Hc. cbn in Hc. cbn. destruct (to_nat v1); [|discriminate]. cbn in *. destruct (to_R v2); [|discriminate]. cbn in *. destruct (to_R v3); [|discriminate]. cbn in *.
    destruct (to_R v4); [|discriminate]. cbn in *. destruct (to_tag v5); [|discriminate]. cbn in *. injection Hc as <-. auto. }
  destruct Q as (Q1 & Q2 & Q3). eexists. split; [exact Sr|]. split; [exact Q1|]. repeat split; auto. simpl. congruence.
Qed.
Theorem C47_disk_samples_converse : forall n m Id Ip tag color rnd e k rest v N, reached (st_disk n m Id Ip tag color rnd) e ->
  st_random e = Some (k :: rest) -> dget (st_attrs e) k = Some v -> entries v N ->
  (forall i, (i < N)%nat -> exists kw y, sample_of (st_attrs e) (k :: rest) i kw /\ call_by_keyword disk_class kw = Ok y) -> exists els, st_list disk_class e = Ok els.
Proof.
  intros * R Rn G Nv H. apply reached_keys in R as (K & _). unfold st_list, random_rows. assert (F : first_random e = Ok (k :: rest, v)) by (apply first_random_ok; eauto). rewrite F.
  cbn [bind snd fst]. apply sv_len_iff in Nv. rewrite Nv. cbn [bind].
  assert (W : forall i, (i < N)%nat -> exists row x, sample_row e (k :: rest) i = Ok row /\ call disk_class row = Ok x).
  { intros i Hi. destruct (H i Hi) as (kw & y & S & Q). destruct (sample_row_ok e (k :: rest) i) as [row Hr].
    { intros k' v' I J. clear -S I J. unfold sample_of in S. induction S as [|a b l l' (E & H1 & _) Hl IH]; [destruct I|]. destruct I as [->|I]; auto. simpl in *. eauto. }
    exists row. pose proof (row_sample _ _ _ _ Hr) as (L & S'). rewrite (sample_inj _ _ _ _ _ S S') in Q. rewrite <- (map_length fst), K in L. rewrite K in Q. simpl in L.
    destruct row as [|v1 [|v2 [|v3 [|v4 [|v5 [|v6 [|v7 row]]]]]]]; try discriminate. assert (O : is_ok (call disk_class [v1; v2; v3; v4; v5; v6])).
    { clear -Q. unfold is_ok, call, call_by_keyword in *. cbn in Q. cbn.
      destruct (to_nat v1); [|discriminate]. cbn in *. destruct (to_R v2); [|discriminate]. cbn in *. destruct (to_R v3); [|discriminate]. cbn in *.
      destruct (to_R v4); [|discriminate]. cbn in *. destruct (to_tag v5); [|discriminate]. cbn. eauto. }
    destruct O as [x Hx]. eauto. }
  assert (V : forall l, (forall i, In i l -> (i < N)%nat) -> exists rows els, mapM (sample_row e (k :: rest)) l = Ok rows /\ mapM (call disk_class) rows = Ok els).
  { induction l as [|i l IH]; intros Hl; cbn [mapM]; [exists [], []; auto|]. destruct (W i) as (row & x & -> & Hc); [apply Hl; left; auto|]. destruct IH as (rows & els & -> & Q); [intros; apply Hl; right; auto|].
    cbn [bind]. exists (row :: rows), (x :: els). split; auto. cbn [mapM]. rewrite Hc. cbn [bind]. rewrite Q. reflexivity. }
  destruct (V (seq 0 N)) as (rows & els & -> & Q); [intros i I; apply in_seq in I; lia|]. cbn [bind]. eauto.
Qed.
(** the colour asked for is never used, whatever it is *)
Theorem C47_disk_colour_refuted : forall color, color <> SStr "Firebrick" -> exists e els x y, st_list disk_class e = Ok els /\ nth_error els 0 = Some x /\
  st_get e "color" = Ok color /\ dr_color x <> color /\
  call_by_keyword disk_class [("n", SInt 1); ("m", SNum 2); ("Id", SNum 3); ("Ip", SNum 4); ("tag", SNone); ("color", color)] = Ok y /\ dr_color y = color.
Proof.
  intros color N. exists (st_disk (SInt 1) (SList [SNum 2]) (SNum 3) (SNum 4) SNone color (Some ["m"])).
  exists [mkDrawn (mkDisk 1 2 3 4 None) color (SStr "Firebrick")]. eexists. eexists. split; [reflexivity|]. split; [reflexivity|]. split; [reflexivity|]. split; [simpl; congruence|]. split; reflexivity.
Qed.
Example C47_disk_instance : st_list disk_class (st_disk (SInt 1) (SList [SNum 2; SNum 5]) (SNum 3) (SList [SNum 4; SNum 6]) (SStr "d") (SStr "blue") (Some ["m"; "Ip"])) =
  Ok [mkDrawn (mkDisk 1 2 3 4 (Some "d")) (SStr "blue") (SStr "Firebrick"); mkDrawn (mkDisk 1 5 3 6 (Some "d")) (SStr "blue") (SStr "Firebrick")].
Proof. reflexivity. Qed.

(** ** disks from their geometry: sample i is the deterministic disk made from the material and the sizes of sample i *)
Theorem C47_disk_geometry : forall n (mats : nat -> material) mat w i_d o_d tagv tag k rest N,
  ((exists m, mat = MValue (SMat m) /\ forall i, mats i = m) \/
   (exists e ms, mat = MStoch e /\ st_list material_class e = Ok ms /\ length ms = N /\ forall i, (i < N)%nat -> nth_error ms i = Some (mats i))) ->
  shape_ok N w -> shape_ok N i_d -> shape_ok N o_d -> to_tag tagv = Ok tag ->
  ((k = "material" /\ exists e, mat = MStoch e) \/ (k = "width" /\ is_list w = true) \/ (k = "i_d" /\ is_list i_d = true) \/ (k = "o_d" /\ is_list o_d = true)) ->
  exists e els, st_disk_geometry (SInt n) mat (of_arr w) (of_arr i_d) (of_arr o_d) tagv (Some (k :: rest)) = Ok e /\ st_list disk_class e = Ok els /\
    length els = N /\ forall i, (i < N)%nat -> exists x, nth_error els i = Some x /\ dr_disk x = disk_from_geometry n (mats i) (at_ w i) (at_ i_d i) (at_ o_d i) tag.
Proof.
  intros n mats mat w i_d o_d tagv tag k rest N HM Sw Si So Ht HK.
  assert (D : exists mv rho, density mat = Ok (mv, rho) /\ shape_ok N rho /\ (forall i, (i < N)%nat -> at_ rho i = mrho (mats i)) /\
    (is_list rho = true <-> exists e, mat = MStoch e) /\ ((exists m, mv = SMat m) /\ is_list rho = false \/ exists l, mv = SList l /\ length l = N)).
  { destruct HM as [(m & -> & Hm)|(e & ms & -> & E & L & Hm)].
    - exists (SMat m), (Sc (mrho m)). simpl. split; auto. split; auto. split; [intros i _; rewrite Hm; auto|]. split; [|left; eauto]. split; [discriminate|intros (e & Q); discriminate].
    - exists (SList (map SMat ms)), (Ar (map mrho ms)). simpl. rewrite E. simpl. split; auto. rewrite map_length. split; auto. split; [|split].
      + intros i Hi. specialize (Hm i Hi). apply nth_error_nth with (d := mats 0%nat) in Hm. rewrite (nth_map' mrho ms i 0 (mats 0%nat)) by lia. congruence.
      + split; eauto.
      + right. eexists. split; [reflexivity|]. rewrite map_length. auto. }
  destruct D as (mv & rho & D & Sr & Ar_ & Lr & Mv). unfold st_disk_geometry. rewrite D. cbn [bind fst snd].
  set (attrs := [("n", SInt n); ("material", mv); ("width", of_arr w); ("i_d", of_arr i_d); ("o_d", of_arr o_d); ("tag", tagv)]).
  assert (LL : forall a, shape_ok N a -> is_list a = true -> sv_len (of_arr a) = Ok N) by (intros [x|l]; simpl; [discriminate|]; intros <- _; rewrite map_length; auto).
  assert (F : exists v, first_random (mkStoch attrs (Some (k :: rest))) = Ok (k :: rest, v) /\ sv_len v = Ok N).
  { destruct HK as [(-> & e & Q)|[(-> & Q)|[(-> & Q)|(-> & Q)]]].
    - exists mv. split; [reflexivity|]. destruct Mv as [(_ & Z)|(l & -> & L)]; [|simpl; congruence]. destruct Lr as [_ Lr]. rewrite Lr in Z; [discriminate|eauto].
    - eexists; split; [reflexivity|auto].
    - eexists; split; [reflexivity|auto].
    - eexists; split; [reflexivity|auto]. }
  destruct F as (v & -> & Lv). cbn [bind fst snd]. rewrite Lv. cbn [bind].
  assert (FO : exists us, mapM (full_ok (k :: rest) N) attrs = Ok us).
  { assert (FA : forall a nm, shape_ok N a -> full_ok (k :: rest) N (nm, of_arr a) = Ok tt).
    { intros a nm Sa. unfold full_ok. cbn [fst snd]. destruct (str_in nm (k :: rest)); auto. destruct a as [x|l]; simpl in *; auto. rewrite map_length, Sa, Nat.eqb_refl. reflexivity. }
    assert (FM : full_ok (k :: rest) N ("material", mv) = Ok tt).
    { unfold full_ok. cbn [fst snd]. destruct (str_in "material" (k :: rest)); auto. destruct Mv as [((m & ->) & _)|(l & -> & L)]; auto. rewrite L, Nat.eqb_refl. reflexivity. }
    assert (FN : full_ok (k :: rest) N ("n", SInt n) = Ok tt) by (unfold full_ok; cbn [fst snd]; destruct (str_in "n" (k :: rest)); auto).
    assert (FT : full_ok (k :: rest) N ("tag", tagv) = Ok tt).
    { unfold full_ok. cbn [fst snd]. destruct (str_in "tag" (k :: rest)); auto. destruct tagv; simpl in Ht; try discriminate; auto. }
    unfold attrs. cbn [mapM]. rewrite FN, FM, !FA, FT by auto. cbn [bind]. eauto. }
  destruct FO as [us ->]. cbn [bind]. rewrite !to_of_arr. cbn [bind].
  destruct (apply1_at N (fun r => 1 / 4 * r * PI) rho Sr) as (P1 & Q1 & V1).
  destruct (apply1_at N (fun r => 1 / 64 * r * PI) rho Sr) as (P2 & Q2 & V2).
  destruct (apply1_at N (fun r => 1 / 32 * r * PI) rho Sr) as (P3 & Q3 & V3).
  destruct (apply1_at N (fun x => x ^ 2) o_d So) as (P4 & Q4 & V4). destruct (apply1_at N (fun x => x ^ 2) i_d Si) as (P5 & Q5 & V5).
  destruct (apply1_at N (fun x => x ^ 4) o_d So) as (P6 & Q6 & V6). destruct (apply1_at N (fun x => x ^ 4) i_d Si) as (P7 & Q7 & V7).
  destruct (apply1_at N (fun x => x ^ 2) w Sw) as (P8 & Q8 & V8).
  destruct (arith_at N Rmult _ _ P1 Sw) as (a & Ea & Sa & La & Va). rewrite Ea. cbn [bind].
  destruct (arith_at N Rminus _ _ P4 P5) as (d2 & Ed2 & Sd2 & Ld2 & Vd2). rewrite Ed2. cbn [bind].
  destruct (arith_at N Rmult _ _ Sa Sd2) as (m & Em & Sm & Lm & Vm). rewrite Em. cbn [bind].
  destruct (arith_at N Rminus _ _ P6 P7) as (d4 & Ed4 & Sd4 & Ld4 & Vd4). rewrite Ed4. cbn [bind].
  destruct (arith_at N Rmult _ _ P2 Sw) as (a' & Ea' & Sa' & La' & Va'). rewrite Ea'. cbn [bind].
  destruct (arith_at N Rmult _ _ Sa' Sd4) as (I1 & EI1 & SI1 & LI1 & VI1). rewrite EI1. cbn [bind].
  destruct (arith_at N Rmult _ _ Sm P8) as (mw & Emw & Smw & Lmw & Vmw). rewrite Emw. cbn [bind].
  destruct (apply1_at N (fun x => x / 12) mw Smw) as (P9 & Q9 & V9).
  destruct (arith_at N Rplus _ _ SI1 P9) as (Id & EId & SId & LId & VId). rewrite EId. cbn [bind].
  destruct (arith_at N Rmult _ _ P3 Sw) as (a'' & Ea'' & Sa'' & La'' & Va''). rewrite Ea''. cbn [bind].
  destruct (arith_at N Rmult _ _ Sa'' Sd4) as (Ip & EIp & SIp & LIp & VIp). rewrite EIp. cbn [bind].
  assert (T : (is_list rho || is_list w || is_list i_d || is_list o_d)%bool = true).
  { destruct HK as [(_ & e & Q)|[(_ & Q)|[(_ & Q)|(_ & Q)]]]; [destruct Lr as [_ Lr]; rewrite Lr by eauto; auto| | |]; rewrite Q, ?orb_true_r; auto. }
  assert (Tm : is_list m = true). { rewrite Lm, La, Ld2, Q1, Q4, Q5. clear -T. destruct (is_list rho), (is_list w), (is_list i_d), (is_list o_d); auto. }
  assert (TId : is_list Id = true). { rewrite LId, Q9, Lmw, Lm, La, Ld2, Q1, Q4, Q5. clear -T. destruct (is_list rho), (is_list w), (is_list i_d), (is_list o_d), (is_list I1); auto. }
  assert (TIp : is_list Ip = true). { rewrite LIp, La'', Ld4, Q3, Q6, Q7. clear -T. destruct (is_list rho), (is_list w), (is_list i_d), (is_list o_d); auto. }
  eexists. set (el := fun i => mkDrawn (mkDisk n (at_ m i) (at_ Id i) (at_ Ip i) tag) (SStr "Firebrick") (SStr "Firebrick")).
  exists (map el (seq 0 N)). split; [reflexivity|]. split; [|split; [rewrite map_length, seq_length; auto|]].
  - unfold st_list, random_rows. assert (FR : first_random (st_disk (SInt n) (of_arr m) (of_arr Id) (of_arr Ip) tagv (SStr "Firebrick") (Some ["m"; "Id"; "Ip"])) = Ok (["m"; "Id"; "Ip"], of_arr m)) by reflexivity.
    rewrite FR. cbn [bind fst snd]. rewrite (LL m Sm Tm). cbn [bind].
    assert (RW : forall i, (i < N)%nat -> sample_row (st_disk (SInt n) (of_arr m) (of_arr Id) (of_arr Ip) tagv (SStr "Firebrick") (Some ["m"; "Id"; "Ip"])) ["m"; "Id"; "Ip"] i =
      Ok [SInt n; SNum (at_ m i); SNum (at_ Id i); SNum (at_ Ip i); tagv; SStr "Firebrick"]).
    { intros i Hi. unfold sample_row, st_disk. cbn [st_attrs mapM fst snd].
      change (str_in "n" ["m"; "Id"; "Ip"]) with false. change (str_in "m" ["m"; "Id"; "Ip"]) with true. change (str_in "Id" ["m"; "Id"; "Ip"]) with true.
      change (str_in "Ip" ["m"; "Id"; "Ip"]) with true. change (str_in "tag" ["m"; "Id"; "Ip"]) with false. change (str_in "color" ["m"; "Id"; "Ip"]) with false. cbv iota.
      rewrite (proj2 (sv_get_iff (of_arr m) i _) (of_arr_entry N m i Sm Tm Hi)), (proj2 (sv_get_iff (of_arr Id) i _) (of_arr_entry N Id i SId TId Hi)), (proj2 (sv_get_iff (of_arr Ip) i _) (of_arr_entry N Ip i SIp TIp Hi)). reflexivity. }
    assert (W : forall l, (forall i, In i l -> (i < N)%nat) -> exists rows, mapM (sample_row (st_disk (SInt n) (of_arr m) (of_arr Id) (of_arr Ip) tagv (SStr "Firebrick") (Some ["m"; "Id"; "Ip"])) ["m"; "Id"; "Ip"]) l = Ok rows
      /\ mapM (call disk_class) rows = Ok (map el l)).
    { induction l as [|i l IH]; intros H; cbn [mapM map]; [exists []; auto|]. rewrite RW by (apply H; left; auto). cbn [bind]. destruct IH as (rows & -> & Q); [intros; apply H; right; auto|]. cbn [bind].
      eexists. split; [reflexivity|]. cbn [mapM]. assert (C : call disk_class [SInt n; SNum (at_ m i); SNum (at_ Id i); SNum (at_ Ip i); tagv; SStr "Firebrick"] = Ok (el i)).
      { unfold call. cbn. rewrite Ht. reflexivity. }
      rewrite C. cbn [bind]. rewrite Q. reflexivity. }
    destruct (W (seq 0 N)) as (rows & -> & Q); [intros i I; apply in_seq in I; lia|]. cbn [bind]. exact Q.
  - intros i Hi. exists (el i). split.
    + rewrite nth_error_map, nth_error_seq. apply Nat.ltb_lt in Hi. rewrite Hi. reflexivity.
    + unfold el, disk_from_geometry. cbn [dr_disk]. rewrite VId, VIp, V9, Vmw, VI1, Va', Va'', Vd4, Vm, Va, Vd2, V1, V2, V3, V4, V5, V6, V7, V8, Ar_ by auto. f_equal; field.
Qed.
(** a plain list of materials, which the documentation also allows, is refused *)
Theorem C47_geometry_material_list_refuted : forall n ms w i_d o_d tag rnd, st_disk_geometry n (MValue (SList ms)) w i_d o_d tag rnd = Err AttributeError.
Proof. reflexivity. Qed.
Example C47_disk_geometry_instance : exists e ms, st_material "steel" (SList [SNum 7000; SNum 8000]) SNone (SNum 1) (SNum 2) "c" = Ok e /\ st_list material_class e = Ok ms /\ length ms = 2%nat /\
  nth_error ms 1 = Some (mkMaterial "steel" 8000 (1 * (2 * (1 + 2))) 1 2 "c") /\ shape_ok 2 (Ar [1; 2]) /\ shape_ok 2 (Sc 3).
Proof.
  eexists. exists [mkMaterial "steel" 7000 (1 * (2 * (1 + 2))) 1 2 "c"; mkMaterial "steel" 8000 (1 * (2 * (1 + 2))) 1 2 "c"]. split; [reflexivity|]. split; [reflexivity|]. repeat split.
Qed.

(** ** shafts *)
Lemma in_join k1 k2 l k : In k (join k1 k2 l) <-> In k l \/ (k = k2 /\ In k1 l).
Proof.
  unfold join. destruct (str_in k1 l) eqn:E1; simpl.
  - apply str_in_iff in E1. destruct (str_in k2 l) eqn:E2; simpl; [apply str_in_iff in E2; split; [tauto|intros [H|(-> & _)]; auto]|].
    rewrite in_app_iff. simpl. split; [intros [H|[<-|[]]]; tauto|intros [H|(-> & _)]; tauto].
  - split; [tauto|]. intros [H|(-> & H)]; auto. apply str_in_iff in H. congruence.
Qed.
Lemma sample_get attrs rnd i kw k : sample_of attrs rnd i kw -> match dget attrs k, dget kw k with
  | Some v, Some x => (In k rnd -> entry v i x) /\ (~ In k rnd -> x = v) | None, None => True | _, _ => False end.
Proof.
  unfold sample_of. induction 1 as [|[k1 v] [k2 x] l l' (E & H1 & H2) Hl IH]; simpl; auto. simpl in *. subst k2. destruct (String.eqb k k1) eqn:Q; auto. apply String.eqb_eq in Q. subst. auto.
Qed.
Lemma entry_fun v i x y : entry v i x -> entry v i y -> x = y.
Proof. destruct v; simpl; try tauto; [|congruence]. intros (c & E & ->) (c' & E' & ->). congruence. Qed.
Lemma st_shaft_facts a e l : st_shaft a = Ok e -> sa_random a = Some l -> exists rnd, st_random e = Some rnd /\
  dget (st_attrs e) "idl" = Some (sa_idl a) /\ dget (st_attrs e) "odl" = Some (sa_odl a) /\
  dget (st_attrs e) "idr" = Some (none_or (sa_idr a) (sa_idl a)) /\ dget (st_attrs e) "odr" = Some (none_or (sa_odr a) (sa_odl a)) /\
  (forall k, In k rnd <-> In k l \/ (k = "idr" /\ In "idl" l /\ sa_idr a = SNone) \/ (k = "odr" /\ In "odl" l /\ sa_odr a = SNone)) /\
  map fst (st_attrs e) = firstn 14 (c_sig shaft_class) /\ (forall m, sa_material a = MValue m -> dget (st_attrs e) "material" = Some m).
Proof.
  intros H R. unfold st_shaft in H. ob H. ob H. ob H. rewrite R in E. destruct a0 as [idr r1], a1 as [odr r2]. unfold resolve_right in *. cbn [fst snd] in *.
  assert (Z : exists l1 l2, r1 = Some l1 /\ r2 = Some l2 /\ idr = none_or (sa_idr a) (sa_idl a) /\ odr = none_or (sa_odr a) (sa_odl a) /\
    (forall k, In k l1 <-> In k l \/ (k = "idr" /\ In "idl" l /\ sa_idr a = SNone)) /\ (forall k, In k l2 <-> In k l1 \/ (k = "odr" /\ In "odl" l1 /\ sa_odr a = SNone))).
  { destruct (sa_idr a); cbn [fst snd] in *; injection E as <- <-; destruct (sa_odr a); cbn [fst snd] in *; injection E0 as <- <-; eexists; eexists; (split; [reflexivity|]); (split; [reflexivity|]); cbn [none_or];
    (split; [reflexivity|]); (split; [reflexivity|]); split; intros kk; rewrite ?in_join; intuition (try discriminate; auto). }
  destruct Z as (l1 & l2 & -> & -> & Z1 & Z2 & Z3 & Z4). injection H as <-. exists l2. rewrite <- Z1, <- Z2. repeat (split; [reflexivity|]). split; [|split; [reflexivity|]].
  - intros k. rewrite Z4, !Z3. split; [|tauto]. intros [[H|H]|(-> & [H|(Q & _)] & H2)]; auto; discriminate.
  - intros m Hm. rewrite Hm in E1. simpl in E1. injection E1 as <-. reflexivity.
Qed.
(** a right diameter left out equals the left one in every sample (unless it was declared random by itself) *)
Theorem C47_shaft_right_default : forall a e l rnd i kw, st_shaft a = Ok e -> sa_random a = Some l -> st_random e = Some rnd -> sample_of (st_attrs e) rnd i kw ->
  (sa_odr a = SNone -> ~ In "odr" l -> dget kw "odr" = dget kw "odl") /\ (sa_idr a = SNone -> ~ In "idr" l -> dget kw "idr" = dget kw "idl").
Proof.
  intros a e l rnd i kw H R Rn S. destruct (st_shaft_facts a e l H R) as (rnd' & Rn' & A1 & A2 & A3 & A4 & I & _). rewrite Rn in Rn'. injection Rn' as <-.
  pose proof (sample_get _ _ _ _ "odr" S) as So. pose proof (sample_get _ _ _ _ "odl" S) as Sol. pose proof (sample_get _ _ _ _ "idr" S) as Si. pose proof (sample_get _ _ _ _ "idl" S) as Sil.
  rewrite A4 in So. rewrite A2 in Sol. rewrite A3 in Si. rewrite A1 in Sil. split; intros Q N; rewrite Q in *; cbn [none_or] in *.
  - destruct (dget kw "odr") as [x|]; [|tauto]. destruct (dget kw "odl") as [y|]; [|tauto]. f_equal. destruct So as (O1 & O2), Sol as (L1 & L2).
    destruct (in_dec string_dec "odl" l) as [J|J].
    + apply (entry_fun (sa_odl a) i); [apply O1|apply L1]; apply I; auto.
    + assert (~ In "odr" rnd) by (rewrite I; intuition discriminate). assert (~ In "odl" rnd) by (rewrite I; intuition discriminate). rewrite O2, L2; auto.
  - destruct (dget kw "idr") as [x|]; [|tauto]. destruct (dget kw "idl") as [y|]; [|tauto]. f_equal. destruct Si as (O1 & O2), Sil as (L1 & L2).
    destruct (in_dec string_dec "idl" l) as [J|J].
    + apply (entry_fun (sa_idl a) i); [apply O1|apply L1]; apply I; auto.
    + assert (~ In "idr" rnd) by (rewrite I; intuition discriminate). assert (~ In "idl" rnd) by (rewrite I; intuition discriminate). rewrite O2, L2; auto.
Qed.
Lemma dget_dset_same {A} (d : dict A) k v : dget (dset d k v) k = Some v.
Proof. induction d as [|[k' v'] d IH]; simpl; [rewrite String.eqb_refl; auto|]. destruct (String.eqb k k') eqn:E; simpl; [rewrite String.eqb_refl; auto|rewrite E; auto]. Qed.
Lemma dget_dset_other {A} (d : dict A) k k' v : k' <> k -> dget (dset d k v) k' = dget d k'.
Proof.
  intros N. induction d as [|[k1 v1] d IH]; simpl.
  - destruct (String.eqb k' k) eqn:E; auto. apply String.eqb_eq in E. tauto.
  - destruct (String.eqb k k1) eqn:E; simpl; auto.
    + apply String.eqb_eq in E. subst k1. destruct (String.eqb k' k) eqn:E2; auto. apply String.eqb_eq in E2. tauto.
    + destruct (String.eqb k' k1); auto.
Qed.
(** assigning new left diameters afterwards does not carry over to the right end: the samples become cones *)
Theorem C47_assigned_diameter_refuted : forall a e l new e' rnd i kw, st_shaft a = Ok e -> sa_random a = Some l -> In "odl" l -> sa_odr a = SNone ->
  st_set e "odl" new = Ok e' -> st_random e' = Some rnd -> sample_of (st_attrs e') rnd i kw ->
  exists x y, dget kw "odl" = Some x /\ entry new i x /\ dget kw "odr" = Some y /\ entry (sa_odl a) i y.
Proof.
  intros a e l new e' rnd i kw H R I Q ST Rn S. destruct (st_shaft_facts a e l H R) as (rnd' & Rn' & A1 & A2 & A3 & A4 & J & _).
  unfold st_set in ST. destruct (dmem (st_attrs e) "odl"); [|discriminate]. injection ST as <-. simpl in *. rewrite Rn in Rn'. injection Rn' as <-.
  pose proof (sample_get _ _ _ _ "odl" S) as Sl. pose proof (sample_get _ _ _ _ "odr" S) as Sr. rewrite dget_dset_same in Sl. rewrite dget_dset_other, A4, Q in Sr by discriminate.
  destruct (dget kw "odl") as [x|]; [|tauto]. destruct (dget kw "odr") as [y|]; [|tauto]. exists x, y. repeat split; [apply Sl|apply Sr]; apply J; auto.
Qed.
(** the constructor writes into the is_random list it is given. A second element built with the same list object, with its own constant
    right diameter, can no longer be sampled. *)
Theorem C47_shared_list_refuted : forall a1 l e1 l' a2 x e2 els, sa_random a1 = Some l -> In "odl" l -> sa_odr a1 = SNone -> st_shaft a1 = Ok e1 -> st_random e1 = Some l' ->
  sa_random a2 = Some l' -> sa_odr a2 = SNum x -> st_shaft a2 = Ok e2 -> st_list shaft_class e2 = Ok els -> els = [].
Proof.
  intros a1 l e1 l' a2 x e2 els R1 I Q1 H1 Rl R2 Q2 H2 L. destruct (st_shaft_facts a1 e1 l H1 R1) as (r & Rr & _ & _ & _ & _ & J & _). rewrite Rl in Rr. injection Rr as <-.
  destruct (st_shaft_facts a2 e2 l' H2 R2) as (r2 & Rr2 & _ & _ & _ & A4 & J2 & K & _). apply (samples_iff shaft_class e2 els ["alpha"; "beta"]) in L; [|rewrite K; reflexivity].
  destruct L as (k & rest & v & Rk & G & N & H). rewrite Rr2 in Rk. injection Rk as ->. destruct els as [|y els]; auto. destruct (H 0%nat y eq_refl) as (kw & S & _).
  pose proof (sample_get _ _ _ _ "odr" S) as So. rewrite A4, Q2 in So. cbn [none_or] in So. destruct (dget kw "odr") as [z|]; [|tauto]. destruct So as (O & _). exfalso. apply O.
  apply J2. left. apply J. auto.
Qed.
Lemma shaft_body_material kw s : c_body shaft_class kw = Ok s -> exists m, kw "material" = Some (SMat m).
Proof.
  unfold shaft_class, c_body. intros H. do 8 ob H. ob H. unfold opt in E7. destruct (kw "material") as [[]|]; try discriminate. eauto.
Qed.
(** plot_random_var of a shaft whose materials are random takes "material" out of is_random for good: afterwards no sample can be built *)
Theorem C47_plot_refuted : forall a e ms els, st_shaft a = Ok e -> dget (st_attrs e) "material" = Some (SList ms) ->
  (forall rnd, st_random e = Some rnd -> NoDup rnd) -> st_list shaft_class (st_shaft_plot e) = Ok els -> els = [].
Proof.
  intros a e ms els H M ND L. assert (K : map fst (st_attrs e) = firstn 14 (c_sig shaft_class)) by (unfold st_shaft in H; ob H; ob H; ob H; injection H as <-; reflexivity).
  apply (samples_iff shaft_class (st_shaft_plot e) els ["alpha"; "beta"]) in L; [|simpl; rewrite K; reflexivity]. destruct L as (k & rest & v & R & G & N & S).
  destruct els as [|y els]; auto. destruct (S 0%nat y eq_refl) as (kw & Sk & C). exfalso. simpl in R. destruct (st_random e) as [rnd|] eqn:Rn; [|discriminate]. cbn [option_map] in R. injection R as R.
  assert (NI : ~ In "material" (remove_first "material" rnd)).
  { specialize (ND rnd eq_refl). clear -ND. induction ND as [|z l NI ND IH]; cbn [remove_first]; [tauto|]. destruct (String.eqb "material" z) eqn:E; [apply String.eqb_eq in E; subst; auto|].
    intros [->|J]; [rewrite String.eqb_refl in E; discriminate|tauto]. }
  rewrite R in NI. pose proof (sample_get _ _ _ _ "material" Sk) as Sm. simpl st_attrs in Sm. rewrite M in Sm. unfold call_by_keyword in C. apply shaft_body_material in C as (m & E). rewrite E in Sm.
  destruct Sm as (_ & Sm). specialize (Sm NI). discriminate.
Qed.
Definition ex_st_args (odr : sv) (mat : matarg) (rnd : list string) : st_shaft_args :=
  mkStShaft (SNum 1) (SNum 0) (SList [SNum 2; SNum 3]) SNone odr mat (SInt 0) (SNum 0) (SNum 0) (SBool true) (SBool true) (SBool true) (SStr "cowper") (Some rnd).
(** the same second element works with a list of its own; the samples of the first are cylinders *)
Example C47_shaft_instance : forall mt, exists e1 e2 s1 s2, st_shaft (ex_st_args SNone (MValue (SMat mt)) ["odl"]) = Ok e1 /\ st_random e1 = Some ["odl"; "odr"] /\
  st_list shaft_class e1 = Ok s1 /\ length s1 = 2%nat /\
  st_shaft (ex_st_args (SNum 5) (MValue (SMat mt)) ["odl"]) = Ok e2 /\ st_list shaft_class e2 = Ok s2 /\ length s2 = 2%nat /\
  nth_error s1 1 = Some (match shaft_init (mkShaftArgs 1 0 3 (Some 0) (Some 3) (Some mt) (Some 0%nat) 0 0 true true true Cowper None 0 0) with Ok s => s | Err _ => ex_shaft 0 "" end).
Proof.
  intros mt. eexists. eexists. eexists. eexists. split; [reflexivity|]. split; [reflexivity|]. split; [reflexivity|]. split; [reflexivity|]. split; [reflexivity|]. split; [reflexivity|]. split; reflexivity.
Qed.
Example C47_plot_instance : forall mt, exists e s, st_shaft (ex_st_args SNone (MValue (SList [SMat mt; SMat mt])) ["odl"; "material"]) = Ok e /\ st_list shaft_class e = Ok s /\ length s = 2%nat /\
  st_list shaft_class (st_shaft_plot e) = Err AttributeError.
Proof. intros mt. eexists. eexists. split; [reflexivity|]. split; [reflexivity|]. split; reflexivity. Qed.
