(** Conversion of a 6-dof rotor to 4 dofs: the facts behind C35. *)
From Coq Require Import Reals String List Arith Lia Lra Bool Permutation Sorted.
From Verif Require Import PyBase MatBase SpecMat MMaterial MShaft MDisk MBearing MRotor SpecShaft SpecRotor
  LMat LShaft LShaftEnergy LShaftProps LShaft6 LShaftEx LDisk LBearing LBearing2 LAssembly LRotor LRotor2 LRotorInit2 LRotor6 CMat MDynamics MResults SpecResults SpecUtils LResults7.
Import ListNotations.
Open Scope list_scope.
Open Scope R_scope.

(** the place of the i-th kept dof *)
Definition up3 (i : nat) : nat := (3 * (i / 2) + i mod 2)%nat.
Lemma up3_even c : up3 (2 * c) = (3 * c)%nat.
Proof. unfold up3. rewrite (Nat.mul_comm 2 c), Nat.div_mul, Nat.mod_mul by lia. lia. Qed.
Lemma up3_odd c : up3 (2 * c + 1) = (3 * c + 1)%nat.
Proof.
  unfold up3. assert (D : ((2 * c + 1) / 2 = c)%nat) by (symmetry; apply Nat.div_unique with 1%nat; lia).
  assert (M : ((2 * c + 1) mod 2 = 1)%nat) by (symmetry; apply Nat.mod_unique with c; lia). lia.
Qed.
Lemma half_cases a : exists c, a = (2 * c)%nat \/ a = (2 * c + 1)%nat.
Proof. exists (a / 2)%nat. pose proof (Nat.div_mod a 2 ltac:(lia)). pose proof (Nat.mod_upper_bound a 2 ltac:(lia)). lia. Qed.
Lemma up3_add k a : up3 (2 * k + a) = (3 * k + up3 a)%nat.
Proof.
  destruct (half_cases a) as [c [-> | ->]].
  - replace (2 * k + 2 * c)%nat with (2 * (k + c))%nat by lia. rewrite !up3_even. lia.
  - replace (2 * k + (2 * c + 1))%nat with (2 * (k + c) + 1)%nat by lia. rewrite !up3_odd. lia.
Qed.
Lemma up3_inj a b : up3 a = up3 b -> a = b.
Proof. destruct (half_cases a) as [c [-> | ->]], (half_cases b) as [d [-> | ->]]; rewrite ?up3_even, ?up3_odd; lia. Qed.
Lemma up3_lt a m : (a < 2 * m <-> up3 a < 3 * m)%nat.
Proof. destruct (half_cases a) as [c [-> | ->]]; rewrite ?up3_even, ?up3_odd; lia. Qed.
Lemma up3_mod a : (up3 a mod 3 <> 2)%nat.
Proof.
  destruct (half_cases a) as [c [-> | ->]]; rewrite ?up3_even, ?up3_odd.
  - rewrite Nat.mul_comm, Nat.mod_mul; lia.
  - replace (3 * c + 1)%nat with (1 + c * 3)%nat by lia. rewrite Nat.mod_add by lia. simpl. lia.
Qed.
Lemma sumn_third m f : (forall c, (c < m)%nat -> f (3 * c + 2)%nat = 0) -> sumn (3 * m) f = sumn (2 * m) (fun a => f (up3 a)).
Proof.
  induction m as [|m IH]; intros H; [reflexivity|].
  replace (3 * S m)%nat with (S (S (S (3 * m)))) by lia. replace (2 * S m)%nat with (S (S (2 * m))) by lia. cbn [sumn].
  rewrite IH by (intros; apply H; lia). replace (S (S (3 * m))) with (3 * m + 2)%nat by lia. rewrite (H m) by lia.
  rewrite up3_even. replace (S (2 * m)) with (2 * m + 1)%nat by lia. rewrite up3_odd. replace (S (3 * m)) with (3 * m + 1)%nat by lia. ring.
Qed.

(** the dof list of an element of the 6-dof rotor and that of the same element in the 4-dof rotor *)
Record lifts (m : nat) (d6 d4 : list nat) : Prop := {
  li_len6 : length d6 = (3 * m)%nat; li_len4 : length d4 = (2 * m)%nat;
  li_up : forall a, (a < 2 * m)%nat -> nth (up3 a) d6 0%nat = up3 (nth a d4 0%nat);
  li_third : forall c, (c < m)%nat -> (nth (3 * c + 2) d6 0 mod 3 = 2)%nat }.
Lemma lifts_nil : lifts 0 [] [].
Proof. constructor; auto; intros; lia. Qed.
Lemma lifts_app m m' a b a' b' : lifts m a b -> lifts m' a' b' -> lifts (m + m') (a ++ a') (b ++ b').
Proof.
  intros H H'. destruct H as [A1 A2 A3 A4], H' as [B1 B2 B3 B4]. constructor.
  - rewrite app_length. lia.
  - rewrite app_length. lia.
  - intros i Hi. destruct (lt_dec i (2 * m)) as [L|L].
    + rewrite !app_nth1; [auto|lia|]. rewrite A1. apply up3_lt; auto.
    + rewrite app_nth2 by (rewrite A1; pose proof (up3_lt i m); lia). rewrite app_nth2 by lia. rewrite A1, A2.
      replace i with (2 * m + (i - 2 * m))%nat at 1 by lia. rewrite up3_add. replace (3 * m + up3 (i - 2 * m) - 3 * m)%nat with (up3 (i - 2 * m)) by lia. apply B3. lia.
  - intros c Hc. destruct (lt_dec c m) as [L|L].
    + rewrite app_nth1 by lia. auto.
    + rewrite app_nth2 by lia. rewrite A1. replace (3 * c + 2 - 3 * m)%nat with (3 * (c - m) + 2)%nat by lia. apply B4. lia.
Qed.
Lemma lifts_seq k h : lifts h (seq (3 * k) (3 * h)) (seq (2 * k) (2 * h)).
Proof.
  constructor; rewrite ?seq_length; auto.
  - intros a Ha. rewrite !seq_nth; [symmetry; apply up3_add|auto|apply up3_lt; auto].
  - intros c Hc. rewrite seq_nth by lia. replace (3 * k + (3 * c + 2))%nat with (2 + (k + c) * 3)%nat by lia. rewrite Nat.mod_add by lia. reflexivity.
Qed.
Lemma lifts_contribution m d6 d4 M6 M4 i j : lifts m d6 d4 ->
  (forall a b, (a < 2 * m)%nat -> (b < 2 * m)%nat -> M6 (up3 a) (up3 b) = M4 a b) ->
  contribution d6 (3 * m) M6 (up3 i) (up3 j) = contribution d4 (2 * m) M4 i j.
Proof.
  intros H HM. unfold contribution.
  assert (Z : forall c k, (c < m)%nat -> Nat.eqb (nth (3 * c + 2) d6 0%nat) (up3 k) = false).
  { intros c k Hc. apply Nat.eqb_neq. intros E. apply (up3_mod k). rewrite <- E. apply (li_third _ _ _ H); auto. }
  assert (U : forall a k, (a < 2 * m)%nat -> Nat.eqb (nth (up3 a) d6 0%nat) (up3 k) = Nat.eqb (nth a d4 0%nat) k).
  { intros a k Ha. rewrite (li_up _ _ _ H) by auto. destruct (Nat.eqb_spec (nth a d4 0%nat) k) as [-> | N]; [apply Nat.eqb_refl|].
    apply Nat.eqb_neq. intros E. apply up3_inj in E. auto. }
  rewrite sumn_third.
  - apply sumn_ext. intros a Ha. rewrite sumn_third.
    + apply sumn_ext. intros b Hb. rewrite !U, HM by auto. reflexivity.
    + intros c Hc. rewrite Z, andb_false_r by auto. reflexivity.
  - intros c Hc. apply sumn_0. intros b Hb. rewrite Z by auto. reflexivity.
Qed.

(** ** the same elements with lateral dofs only *)
Definition lat_elem (e : elem) : elem :=
  match e with
  | EShaft _ n t s => EShaft false n t s | EDisk _ t d => EDisk false t d
  | EBrg t b => EBrg t (lat_brg b) | EPm _ t p => EPm false t p
  end.
Lemma lat_n e : el_n (lat_elem e) = el_n e. Proof. destruct e as [| |t [|]|]; reflexivity. Qed.
Lemma lat_tag e : el_tag (lat_elem e) = el_tag e. Proof. destruct e as [| |t [|]|]; reflexivity. Qed.
Lemma lat_link e : el_link (lat_elem e) = el_link e. Proof. destruct e as [| |t [|]|]; reflexivity. Qed.
Lemma lat_L e : sh_L (lat_elem e) = sh_L e. Proof. destruct e; reflexivity. Qed.
Lemma lat_row e p q : elem_row (lat_elem e) p q = elem_row e p q. Proof. destruct e as [| |t [|]|]; reflexivity. Qed.

Definition six_elem (e : elem) : Prop :=
  match e with EShaft six _ _ _ | EDisk six _ _ | EPm six _ _ => six = true | EBrg _ (RB4 _ _) => False | EBrg _ (RB6 _) => True end.
Definition third_size (e : elem) : nat :=
  match e with EShaft _ _ _ _ => 4 | EDisk _ _ _ => 2 | EPm _ _ _ => 1 | EBrg _ b => match b_n_link (brg_base b) with Some _ => 2 | None => 1 end end%nat.
Lemma start_third last n : exists k, node_start 6 last n = (3 * k)%nat /\ node_start 4 last n = (2 * k)%nat.
Proof.
  unfold node_start. destruct (n <=? last + 1)%nat; [exists (2 * n)%nat; lia|]. exists (2 * (last + 2) + (n - (last + 2)))%nat. change (6 / 2)%nat with 3%nat. change (4 / 2)%nat with 2%nat. lia.
Qed.
Lemma lifts_node last n h : lifts h (seq (node_start 6 last n) (3 * h)) (seq (node_start 4 last n) (2 * h)).
Proof. destruct (start_third last n) as (k & -> & ->). apply lifts_seq. Qed.
Lemma lifts_elem last e : six_elem e -> lifts (third_size e) (acts_on 6 last e) (acts_on 4 last (lat_elem e)).
Proof.
  intros H. destruct e as [six n t s|six t d|t b|six t p]; cbn [six_elem] in H; unfold acts_on, third_size; cbn [lat_elem].
  - apply (lifts_app 2 2); apply (lifts_node last _ 2).
  - apply (lifts_node last _ 2).
  - destruct b as [|b]; [tauto|]. cbn [lat_brg brg_base]. change (6 / 2)%nat with 3%nat. change (4 / 2)%nat with 2%nat. destruct (b_n_link (b6 b)) as [m|].
    + apply (lifts_app 1 1); apply (lifts_node last _ 1).
    + apply (lifts_app 1 0); [apply (lifts_node last _ 1)|apply lifts_nil].
  - apply (lifts_node last _ 1).
Qed.

(** ** element matrices *)
Definition same_lat (f : elem -> res (nat * mat)) (e : elem) : Prop :=
  forall k M, f e = Ok (k, M) -> k = (3 * third_size e)%nat /\ exists M4, f (lat_elem e) = Ok (2 * third_size e, M4)%nat /\
  forall a b, (a < 2 * third_size e)%nat -> (b < 2 * third_size e)%nat -> M (up3 a) (up3 b) = M4 a b.
Lemma lat6_up3 a : (a < 8)%nat -> lat6 a = up3 a.
Proof. intros H. do 8 (destruct a as [|a]; [reflexivity|]). lia. Qed.
Lemma lat3_up3 a : (a < 4)%nat -> lat3 a = up3 a.
Proof. intros H. do 4 (destruct a as [|a]; [reflexivity|]). lia. Qed.
Lemma block_lat spl b w xx xy yx yy zz M : block3 spl b w xx xy yx yy zz = Ok M ->
  let m := match b_n_link (b6 b) with Some _ => 2 | None => 1 end%nat in
  exists M4, block2 spl (b6 b) w xx xy yx yy = Ok M4 /\ forall i j, (i < 2 * m)%nat -> (j < 2 * m)%nat -> M (up3 i) (up3 j) = M4 i j.
Proof.
  unfold block3, block2. destruct (eval_coef spl (b6 b) xx w); [|discriminate]. destruct (eval_coef spl (b6 b) yy w); [|discriminate].
  destruct (eval_coef spl (b6 b) xy w); [|discriminate]. destruct (eval_coef spl (b6 b) yx w); [|discriminate]. destruct (eval_interp spl zz w); [|discriminate].
  cbn [bind]. intros [= <-]. cbv zeta. eexists. split; [reflexivity|]. destruct (b_n_link (b6 b)).
  - intros i j Hi Hj. do 4 (destruct i as [|i]; [do 4 (destruct j as [|j]; [reflexivity|]); lia|]). lia.
  - intros i j Hi Hj. do 2 (destruct i as [|i]; [do 2 (destruct j as [|j]; [reflexivity|]); lia|]). lia.
Qed.
Lemma brg_size_third t b : six_elem (EBrg t b) -> brg_size b = (3 * third_size (EBrg t b))%nat /\ brg_size (lat_brg b) = (2 * third_size (EBrg t b))%nat.
Proof. destruct b as [|b]; [intros []|]. intros _. unfold brg_size, third_size. cbn [lat_brg brg_base]. destruct (b_n_link (b6 b)); auto. Qed.
Lemma same_lat_brg spl w e (f : elem -> res (nat * mat)) xx xy yx yy (zz : bearing6 -> interp) : six_elem e ->
  (forall t b, f (EBrg t (RB6 b)) = sized (brg_size (RB6 b)) (block3 spl b w xx xy yx yy (zz b))) ->
  (forall t s b, f (EBrg t (RB4 s b)) = sized (brg_size (RB4 s b)) (block2 spl b w xx xy yx yy)) ->
  match e with EBrg _ _ => True | _ => False end -> same_lat f e.
Proof.
  intros H H6 H4 He. destruct e as [| |t b|]; try tauto. destruct (brg_size_third t b H) as [S6 S4]. destruct b as [|b]; [destruct H|].
  intros k M E. rewrite H6 in E. apply sized_ok in E. destruct E as [-> E]. split; [exact S6|].
  destruct (block_lat _ _ _ _ _ _ _ _ _ E) as (M4 & E4 & Q). exists M4. cbn [lat_elem lat_brg]. rewrite H4, E4. unfold sized, bind. cbn [lat_brg] in S4. rewrite S4. split; auto.
Qed.
Ltac one E := injection E; intros; subst; split; [reflexivity|]; eexists; split; [reflexivity|].
Lemma same_lat_M spl w e : six_elem e -> same_lat (el_M spl w) e.
Proof.
  intros H. destruct e as [six n t s|six t d|t b|six t p].
  - cbn in H. subst six. intros k M E. one E. intros a b Ha Hb. cbn in Ha, Hb. rewrite <- !lat6_up3 by lia. apply shaft6_M_lat; auto.
  - cbn in H. subst six. intros k M E. one E. intros a b Ha Hb. cbn in Ha, Hb. rewrite <- !lat3_up3 by lia. apply disk6_lat; auto.
  - apply (same_lat_brg spl w _ _ mxx mxy myx myy (fun b => snd (b6_mzz b))); auto; reflexivity.
  - cbn in H. subst six. intros k M E. one E. intros a b Ha Hb. cbn in Ha, Hb. do 2 (destruct a as [|a]; [do 2 (destruct b as [|b]; [reflexivity|]); lia|]). lia.
Qed.
Lemma same_lat_K spl w e : six_elem e -> same_lat (el_K spl w) e.
Proof.
  intros H. destruct e as [six n t s|six t d|t b|six t p].
  - cbn in H. subst six. intros k M E. one E. intros a b Ha Hb. cbn in Ha, Hb. rewrite <- !lat6_up3 by lia. apply shaft6_K_lat; auto.
  - cbn in H. subst six. intros k M E. one E. reflexivity.
  - apply (same_lat_brg spl w _ _ kxx kxy kyx kyy (fun b => snd (b6_kzz b))); auto; reflexivity.
  - cbn in H. subst six. intros k M E. one E. reflexivity.
Qed.
Lemma same_lat_C spl w e : six_elem e -> same_lat (el_C spl w) e.
Proof.
  intros H. destruct e as [six n t s|six t d|t b|six t p].
  - cbn in H. subst six. intros k M E. one E. intros a b Ha Hb. cbn in Ha, Hb. rewrite <- !lat6_up3 by lia. apply shaft6_C_lat; auto.
  - cbn in H. subst six. intros k M E. one E. reflexivity.
  - apply (same_lat_brg spl w _ _ cxx cxy cyx cyy (fun b => snd (b6_czz b))); auto; reflexivity.
  - cbn in H. subst six. intros k M E. one E. reflexivity.
Qed.
Lemma same_lat_G spl e : six_elem e -> good_cylinder e -> same_lat (el_G spl) e.
Proof.
  intros H Hc. destruct e as [six n t s|six t d|t b|six t p].
  - cbn in H. subst six. intros k M E. one E. intros a b Ha Hb. cbn in Ha, Hb. rewrite <- !lat6_up3 by lia.
    destruct Hc as (ar & Hi & Hg & Hc). apply (G6_cyl _ _ Hi Hg Hc); auto.
  - cbn in H. subst six. intros k M E. one E. intros a b Ha Hb. cbn in Ha, Hb. rewrite <- !lat3_up3 by lia. apply disk6_lat; auto.
  - intros k M E. cbn [el_G] in E. destruct (el_K spl 0 (EBrg t b)) as [[k' M']|] eqn:EK; [|discriminate]. cbn [bind fst] in E.
    destruct (same_lat_K spl 0 _ H _ _ EK) as (-> & M4 & E4 & _). injection E as <- <-. split; [reflexivity|]. cbn [el_G lat_elem]. cbn [lat_elem] in E4. rewrite E4. cbn [bind fst].
    eexists. split; reflexivity.
  - cbn in H. subst six. intros k M E. one E. reflexivity.
Qed.

(** ** assembled matrices *)
Lemma lat_assembled spl w f (r r4 : rotor) l A : rfacts r -> pm_matches r -> rfacts r4 -> pm_matches r4 -> mkind spl w f ->
  r_nd r = 6%nat -> r_nd r4 = 4%nat -> r_n_last r4 = r_n_last r -> length (r_pm r4) = length (r_pm r) ->
  incl l (r_elements r) -> incl (map lat_elem l) (r_elements r4) ->
  (forall e, In e l -> six_elem e /\ same_lat f e) -> assemble (r_ndof r) (r_dofs r) f l mzero = Ok A ->
  exists B B', remove_dofs (r_ndof r, A) None = Ok (r_ndof r4, B) /\ assemble (r_ndof r4) (r_dofs r4) f (map lat_elem l) mzero = Ok B' /\ meq (r_ndof r4) B B'.
Proof.
  intros F P F4 P4 Hk N6 N4 HL Hpm Hi Hi4 Hs HA.
  set (m := (2 * (r_n_last r + 2) + length (r_pm r))%nat).
  assert (D6 : r_ndof r = (3 * m)%nat) by (rewrite (rf_ndof _ F), N6; change (6 / 2)%nat with 3%nat; unfold m; lia).
  assert (D4 : r_ndof r4 = (2 * m)%nat) by (rewrite (rf_ndof _ F4), N4, HL, Hpm; change (4 / 2)%nat with 2%nat; unfold m; lia).
  pose proof (assembled_acts _ _ _ _ _ _ _ F P Hk Hi HA) as Act. destruct (assemble_ok _ _ _ _ _ _ HA) as [Ok1 _].
  assert (X : exists B', assemble (r_ndof r4) (r_dofs r4) f (map lat_elem l) mzero = Ok B').
  { apply assemble_intro. intros e4 He4. apply in_map_iff in He4. destruct He4 as (e & <- & He).
    destruct (Hs e He) as [S6 SL]. destruct (Ok1 e He) as (k & M & Hf & Hl & Hb). destruct (SL _ _ Hf) as (-> & M4 & E4 & _).
    exists (2 * third_size e)%nat, M4. split; [exact E4|]. specialize (Act e He). rewrite N6 in Act. rewrite Act in Hb.
    pose proof (lifts_elem (r_n_last r) e S6) as LI.
    assert (Hin : In (lat_elem e) (r_elements r4)) by (apply Hi4, in_map; auto).
    assert (E : r_dofs r4 (lat_elem e) = acts_on 4 (r_n_last r) (lat_elem e)).
    { unfold r_dofs. rewrite N4, HL. rewrite <- HL. apply el_dofs_acts; [auto|rewrite <- N4; apply rf_fam; auto|rewrite <- N4; apply pm_matches_fam; auto|apply rf_n_cond; auto|].
      rewrite lat_link, lat_n. intros E. destruct e as [| |t b|]; try discriminate.
      refine (self_link_short (r_nd r) (r_n_last r) t b E (rf_fam _ F _ (Hi _ He)) _). unfold r_dofs in Hl. rewrite Hl.
      destruct (brg_size_third t b S6) as [-> _]. reflexivity. }
    rewrite E. split; [apply (li_len4 _ _ _ LI)|]. intros d Hd. apply In_nth with (d := 0%nat) in Hd. destruct Hd as (a & Ha & <-).
    rewrite (li_len4 _ _ _ LI) in Ha. rewrite D4. apply up3_lt. rewrite <- (li_up _ _ _ LI) by auto. rewrite <- D6. apply Hb. apply nth_In. rewrite (li_len6 _ _ _ LI). apply up3_lt. auto. }
  destruct X as [B' HB']. destruct (remove_third m A) as (B & HB & EB). exists B, B'. rewrite D6, D4. split; [exact HB|]. split; [rewrite <- D4; exact HB'|].
  intros i j Hi' Hj. rewrite EB by auto. fold (up3 i) (up3 j).
  rewrite (assembled_entries _ _ _ _ _ _ F P Hk Hi HA), (assembled_entries _ _ _ _ _ _ F4 P4 Hk Hi4 HB'). rewrite map_map.
  apply suml_map_ext. intros e He. destruct (Hs e He) as [S6 SL]. destruct (Ok1 e He) as (k & M & Hf & _ & _). destruct (SL _ _ Hf) as (-> & M4 & E4 & Q).
  unfold el_size, el_mat. rewrite Hf, E4. cbn [fst snd]. rewrite N6, N4, HL. apply lifts_contribution; auto. apply lifts_elem; auto.
Qed.

(** ** the 4-dof rotor *)
Lemma insert_lat x l : insert_n (lat_elem x) (map lat_elem l) = map lat_elem (insert_n x l).
Proof. induction l as [|y l IH]; simpl; [reflexivity|]. rewrite !lat_n. destruct (_ <=? _)%nat; simpl; [reflexivity|]. rewrite IH. reflexivity. Qed.
Lemma sort_lat l : sort_n (map lat_elem l) = map lat_elem (sort_n l).
Proof. induction l as [|x l IH]; simpl; [reflexivity|]. rewrite IH, insert_lat. reflexivity. Qed.
Lemma mapi_lat {A B} (g : A -> B) (f : nat -> A -> elem) (f' : nat -> B -> elem) l : (forall i x, In x l -> f' i (g x) = lat_elem (f i x)) ->
  forall i, mapi f' i (map g l) = map lat_elem (mapi f i l).
Proof. intros H. induction l as [|x l IH]; intros i; simpl; [reflexivity|]. rewrite H by (simpl; auto). rewrite IH; [reflexivity|]. intros j y Hy. apply H. right. exact Hy. Qed.
Lemma map_lat_eq {B} (g : elem -> B) l : (forall e, g (lat_elem e) = g e) -> map g (map lat_elem l) = map g l.
Proof. intros H. rewrite map_map. apply map_ext. auto. Qed.
Lemma shaft_pos_from_lat l : forall k a b, shaft_pos_from k a b (map lat_elem l) = shaft_pos_from k a b l.
Proof. induction l as [|e l IH]; intros k a b; simpl; [reflexivity|]. rewrite lat_n, lat_L, IH. reflexivity. Qed.
Lemma shaft_pos_lat l : MRotor.shaft_pos (map lat_elem l) = MRotor.shaft_pos l.
Proof. destruct l as [|e l]; simpl; [reflexivity|]. rewrite lat_n, lat_L, shaft_pos_from_lat. reflexivity. Qed.
Lemma nodes_pos_lat l : nodes_pos (map lat_elem l) = nodes_pos l.
Proof. unfold nodes_pos. rewrite shaft_pos_lat, (map_lat_eq el_n) by apply lat_n. reflexivity. Qed.
Lemma disk_positions_lat pos l : disk_positions pos (map lat_elem l) = disk_positions pos l.
Proof. induction l as [|e l IH]; simpl; [reflexivity|]. rewrite lat_n, IH. reflexivity. Qed.
Lemma locate_all_lat l : forall df, locate_all df (map lat_elem l) = locate_all df l.
Proof.
  induction l as [|e l IH]; intros df; simpl; [reflexivity|].
  assert (E : locate_one df (lat_elem e) = locate_one df e) by (unfold locate_one; rewrite lat_n, lat_tag; reflexivity). rewrite E.
  destruct (locate_one df e); simpl; auto.
Qed.
Lemma existsb_lat (f : elem -> bool) l : (forall e, f (lat_elem e) = f e) -> existsb f (map lat_elem l) = existsb f l.
Proof. intros H. induction l as [|e l IH]; simpl; [reflexivity|]. rewrite H, IH. reflexivity. Qed.
Lemma filter_lat (f : elem -> bool) l : (forall e, f (lat_elem e) = f e) -> filter f (map lat_elem l) = map lat_elem (filter f l).
Proof. intros H. induction l as [|e l IH]; simpl; [reflexivity|]. rewrite H, IH. destruct (f e); reflexivity. Qed.
Lemma filter_lat_in (f : elem -> bool) l : (forall e, In e l -> f (lat_elem e) = f e) -> filter f (map lat_elem l) = map lat_elem (filter f l).
Proof.
  intros H. induction l as [|e l IH]; simpl; [reflexivity|]. rewrite H by (left; auto). rewrite IH by (intros; apply H; right; auto). destruct (f e); reflexivity.
Qed.
Lemma height_ok_lat sh z ns : height_ok (map lat_elem sh) z ns = height_ok sh z ns.
Proof.
  assert (E : forall k, existsb (fun e => Nat.eqb (el_n e) k) (map lat_elem sh) = existsb (fun e => Nat.eqb (el_n e) k) sh).
  { intros k. apply existsb_lat. intros; rewrite lat_n; reflexivity. }
  unfold height_ok. rewrite shaft_pos_lat. destruct z, ns as [|n ns]; auto. cbv zeta. rewrite !E.
  destruct (fold_right Nat.min n ns); rewrite ?E; reflexivity.
Qed.
Lemma heights_ok_lat sh br df l : heights_ok (map lat_elem sh) (map lat_elem br) df (map lat_elem l) = heights_ok sh br df l.
Proof.
  induction l as [|e l IH]; simpl; [reflexivity|]. rewrite lat_tag, height_ok_lat, IH.
  rewrite filter_lat by (intros; rewrite lat_tag; reflexivity). rewrite (map_lat_eq el_n) by apply lat_n. reflexivity.
Qed.
Lemma pm_ok_lat br pm : pm_ok (map lat_elem br) (map lat_elem pm) = pm_ok br pm.
Proof.
  unfold pm_ok. induction pm as [|p pm IH]; simpl; [reflexivity|]. rewrite IH, lat_n. f_equal. apply existsb_lat. intros. rewrite lat_n. reflexivity.
Qed.
Lemma combine_lat {B C} (g : elem * B -> C) l (l' : list B) : (forall e b, g (lat_elem e, b) = g (e, b)) -> map g (combine (map lat_elem l) l') = map g (combine l l').
Proof. intros H. revert l'. induction l as [|e l IH]; intros [|b l']; simpl; auto. rewrite H, IH. reflexivity. Qed.
Lemma check_lat sh dk br : (forall e, In e (sh ++ dk ++ br) -> six_elem e) -> sh <> [] ->
  (forall e, In e sh -> exists six n t s, e = EShaft six n t s) -> (forall e, In e dk -> exists six t d, e = EDisk six t d) -> (forall e, In e br -> exists t b, e = EBrg t b) ->
  check_number_dof (map lat_elem sh) (map lat_elem dk) (map lat_elem br) = Ok 4%nat.
Proof.
  intros H N Hs Hd Hb. destruct sh as [|s0 sh]; [tauto|]. unfold check_number_dof.
  assert (E : forall (f : elem -> bool) l, (forall e, In e l -> f (lat_elem e) = false) -> existsb f (map lat_elem l) = false).
  { intros f l Hf. apply not_true_iff_false. intros Q. apply existsb_exists in Q. destruct Q as (x & Hx & Q). apply in_map_iff in Hx. destruct Hx as (y & <- & Hy). rewrite Hf in Q by auto. discriminate. }
  destruct (Hs s0 (or_introl eq_refl)) as (six0 & n0 & t0 & s00 & ->).
  change (map lat_elem (EShaft six0 n0 t0 s00 :: sh)) with (EShaft false n0 t0 s00 :: map lat_elem sh) at 1. cbv iota.
  change (length (dof_mapping (EShaft false n0 t0 s00))) with 8%nat. cbv zeta. change (Nat.div2 8) with 4%nat. change (Nat.div2 4) with 2%nat.
  rewrite !E; [reflexivity| | |].
  - intros e He. destruct (Hb e He) as (t & b & ->). assert (Q := H (EBrg t b) ltac:(rewrite !in_app_iff; auto)). destruct b; [destruct Q|reflexivity].
  - intros e He. destruct (Hd e He) as (six & t & d & ->). reflexivity.
  - intros e He. destruct (Hs e He) as (six & n & t & s & ->). reflexivity.
Qed.
Lemma sum_lat (g : elem -> R) l : (forall e, g (lat_elem e) = g e) -> suml (map g (map lat_elem l)) = suml (map g l).
Proof. intros H. rewrite map_lat_eq; auto. Qed.
Lemma lat_init shafts disks brgs pms r : rotor_init shafts disks brgs pms = Ok r -> (forall e, In e (r_elements r) -> six_elem e) ->
  exists r4, rotor_init (map lat_shaft shafts) (map lat_disk disks) (map lat_brg brgs) (map lat_pm pms) = Ok r4 /\
  r_shaft r4 = map lat_elem (r_shaft r) /\ r_disk r4 = map lat_elem (r_disk r) /\ r_brg r4 = map lat_elem (r_brg r) /\ r_pm r4 = map lat_elem (r_pm r) /\
  r_nd r4 = 4%nat /\ r_n_last r4 = r_n_last r /\ r_nodes_pos r4 = r_nodes_pos r /\ r_m r4 = r_m r /\ r_CG r4 = r_CG r /\ r_Ip r4 = r_Ip r.
Proof.
  intros H S6. pose proof (rotor_facts _ _ _ _ _ H) as F. destruct (rotor_init_lists _ _ _ _ _ H) as (Es & Ed & Eb & Ep).
  assert (B6 : forall b, In b brgs -> exists c, b = RB6 c).
  { intros b Hb. destruct b as [x b|c]; [|eauto]. exfalso. destruct (LRotorInit2.mapi_map_in mk_brg brgs 0 _ Hb) as (j & Hj).
    assert (Q := S6 (mk_brg j (RB4 x b))). unfold r_elements in Q. rewrite !in_app_iff, Eb, sort_n_in in Q. apply Q. auto. }
  assert (X1 : sort_n (mapi mk_shaft 0 (map lat_shaft shafts)) = map lat_elem (r_shaft r)).
  { rewrite Es, <- sort_lat. f_equal. apply mapi_lat. reflexivity. }
  assert (X2 : mapi mk_disk 0 (map lat_disk disks) = map lat_elem (r_disk r)) by (rewrite Ed; apply mapi_lat; reflexivity).
  assert (X3 : sort_n (mapi mk_brg 0 (map lat_brg brgs)) = map lat_elem (r_brg r)).
  { rewrite Eb, <- sort_lat. f_equal. apply mapi_lat. intros i b Hb. destruct (B6 b Hb) as [c ->]. reflexivity. }
  assert (X4 : mapi mk_pm 0 (map lat_pm pms) = map lat_elem (r_pm r)) by (rewrite Ep; apply mapi_lat; reflexivity).
  assert (T : forall l, map el_tag (map lat_elem l) = map el_tag l) by (intros; apply map_lat_eq, lat_tag).
  assert (Nn : forall l, map el_n (map lat_elem l) = map el_n l) by (intros; apply map_lat_eq, lat_n).
  revert H. unfold rotor_init. rewrite X1, X2, X3, X4. rewrite <- Es, <- Ed, <- Eb, <- Ep.
  assert (TG : map el_tag (map lat_elem (r_shaft r) ++ map lat_elem (r_disk r) ++ map lat_elem (r_brg r) ++ map lat_elem (r_pm r)) = map el_tag (r_shaft r ++ r_disk r ++ r_brg r ++ r_pm r)) by (rewrite <- !map_app; apply T).
  rewrite TG. destruct (tags_unique _); [|discriminate]. cbn [negb].
  rewrite check_lat; [|intros e He; apply S6; unfold r_elements; rewrite !in_app_iff in *; tauto|apply F|apply F|apply F|apply F].
  destruct (check_number_dof _ _ _) as [nd|]; [|discriminate]. cbn [bind].
  assert (LO : location_ok (map lat_elem (r_shaft r)) (map lat_elem (r_disk r)) (map lat_elem (r_brg r)) (map lat_elem (r_pm r)) = location_ok (r_shaft r) (r_disk r) (r_brg r) (r_pm r)).
  { unfold location_ok. rewrite <- !map_app, !Nn. rewrite (map_lat_eq (fun e => S (el_n e))) by (intros; rewrite lat_n; reflexivity). reflexivity. }
  destruct (location_ok (r_shaft r) (r_disk r) (r_brg r) (r_pm r)); cbn [negb]; [|discriminate]. rewrite LO. cbn [negb]. rewrite nodes_pos_lat, disk_positions_lat.
  destruct (disk_positions _ _) as [dpos|]; [|discriminate]. cbn [bind]. cbv zeta.
  rewrite shaft_pos_lat, !combine_lat by (intros; destruct e as [| |? []|]; reflexivity).
  assert (Fl : forall (f : elem -> bool), (f = (fun b => match b with EBrg _ (RB4 true _) => false | _ => true end) \/ f = (fun b => match b with EBrg _ (RB4 true _) => true | _ => false end)) ->
    filter f (map lat_elem (r_brg r)) = map lat_elem (filter f (r_brg r))).
  { intros f Hf. apply filter_lat_in. intros e He. destruct (rf_brg _ F e He) as (t & b & ->). assert (Q := S6 (EBrg t b)). unfold r_elements in Q. rewrite !in_app_iff in Q.
    destruct b as [|b]; [destruct Q; auto|]. destruct Hf as [-> | ->]; reflexivity. }
  rewrite !Fl by auto. rewrite !(map_lat_eq (fun b => elem_row b None None)) by (intros; apply lat_row).
  rewrite locate_all_lat. destruct (locate_all _ _) as [df|]; [|discriminate]. cbn [bind].
  rewrite heights_ok_lat. destruct (heights_ok _ _ _ _) as [[]|]; [|discriminate]. cbn [bind]. rewrite pm_ok_lat. destruct (pm_ok _ _); [|discriminate]. cbn [negb].
  intros [= Er]. eexists. split; [reflexivity|]. cbn [r_shaft r_disk r_brg r_pm r_nd r_n_last r_nodes_pos r_m r_CG r_Ip].
  do 5 (split; [reflexivity|]). rewrite <- map_rev.
  assert (R1 : r_n_last r = match rev (r_shaft r) with e :: _ => el_n e | [] => 0%nat end) by (rewrite <- Er at 1; reflexivity).
  assert (R2 : r_nodes_pos r = nodes_pos (r_shaft r)) by apply F.
  assert (Q1 : suml (map dk_m (map lat_elem (r_disk r))) = suml (map dk_m (r_disk r))) by (apply sum_lat; intros []; reflexivity).
  assert (Q2 : suml (map sh_m (map lat_elem (r_shaft r))) = suml (map sh_m (r_shaft r))) by (apply sum_lat; intros []; reflexivity).
  assert (Q3 : suml (map dk_Ip (map lat_elem (r_disk r))) = suml (map dk_Ip (r_disk r))) by (apply sum_lat; intros []; reflexivity).
  assert (Q4 : suml (map sh_Im (map lat_elem (r_shaft r))) = suml (map sh_Im (r_shaft r))) by (apply sum_lat; intros []; reflexivity).
  rewrite Q1, Q2, Q3, Q4. 
  split; [rewrite R1; destruct (rev (r_shaft r)); [reflexivity|cbn [map]; apply lat_n]|].
  split; [auto|]. split; [symmetry; apply F|]. split; [|symmetry; apply F].
  assert (R3 := f_equal r_CG Er). cbn [r_CG] in R3. rewrite <- R3. reflexivity.
Qed.
