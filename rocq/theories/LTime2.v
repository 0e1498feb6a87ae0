(** Lemmas on the rotor system that is integrated in time. *)
From Coq Require Import Reals String List Arith Bool Lia Lra ZArith Permutation.
From Verif Require Import PyBase MatBase SpecMat LMat CMat LCMat MShaft MDisk MBearing LBearing MRotor SpecRotor LAssembly LRotor LRotor2 LRotor3 LRotor5 LRotorInit PropRotor MDynamics SpecDynamics LDynamics LStability LTransfer LDynEx MTime SpecTime LTime.
Import ListNotations.
Open Scope list_scope.
Open Scope R_scope.

(** ** bearings without a table do not depend on the frequency *)
Lemma process_none c p : process_coefficient None c = Ok p -> exists v, snd p = IConst v.
Proof.
  unfold process_coefficient. destruct (Nat.ltb _ _); [discriminate|]. destruct c as [v|[|v l]]; intros [= <-]; eexists; reflexivity.
Qed.
Lemma built_const spl w w' e f g : built e -> has_table e = false ->
  (f = el_C /\ g = el_C \/ f = el_K /\ g = el_K) -> f spl w e = g spl w' e.
Proof.
  intros B T. destruct e as [six n t s|six t d|t b|six t p]; try (intros [[-> ->]|[-> ->]]; reflexivity).
  assert (H : forall b0, (exists a, bearing_init a = Ok b0) -> b_frequency b0 = None -> forall c, exists v, snd (b_coef b0 c) = IConst v).
  { intros b0 [a Ha] Hn c. destruct (bearing_init_ok _ _ Ha) as (_ & _ & _ & _ & _ & Ef & Hp). rewrite Ef in Hn. specialize (Hp c). rewrite Hn in Hp. eapply process_none; eauto. }
  destruct b as [sl b|b]; simpl in B, T.
  - destruct (b_frequency b) eqn:Ef; [discriminate|]. assert (Hc := H b B Ef).
    assert (E : forall c, eval_coef spl b c w = eval_coef spl b c w') by (intros c; unfold eval_coef; destruct (Hc c) as [v ->]; reflexivity).
    intros [[-> ->]|[-> ->]]; cbn [el_C el_K]; unfold bearing_C, bearing_K, block2; rewrite !E; reflexivity.
  - destruct B as (a & k & c & m & B). unfold bearing6_init in B. apply bind_ok in B as (b0 & Hb & B). apply bind_ok in B as (pk & Hk & B). apply bind_ok in B as (pc & Hpc & B).
    apply bind_ok in B as (pm & Hpm & B). destruct (length_check _ _); [|discriminate]. injection B as <-. cbn [b6] in *.
    destruct (b_frequency b0) eqn:Ef; [discriminate|].
    assert (Hc := H b0 (ex_intro _ a Hb) Ef).
    destruct (bearing_init_ok _ _ Hb) as (_ & _ & _ & _ & _ & Ef' & _). rewrite Ef in Ef'. rewrite <- Ef' in Hk, Hpc.
    apply process_none in Hk as [vk Hk]. apply process_none in Hpc as [vc Hpc].
    assert (E : forall c, eval_coef spl b0 c w = eval_coef spl b0 c w') by (intros c'; unfold eval_coef; destruct (Hc c') as [v ->]; reflexivity).
    intros [[-> ->]|[-> ->]]; cbn [el_C el_K]; unfold bearing6_C, bearing6_K, block3; cbn [b6 b6_kzz b6_czz]; rewrite !E, ?Hk, ?Hpc; reflexivity.
Qed.
Lemma sized_const (f : (list R -> list R -> R -> R) -> R -> elem -> res (nat * mat)) spl w w' e : f spl w e = f spl w' e ->
  el_size (f spl w) e = el_size (f spl w') e /\ el_mat (f spl w) e = el_mat (f spl w') e.
Proof. intros E. unfold el_size, el_mat. rewrite E. auto. Qed.

(** ** splitting the elements *)
Lemma suml_filter {A} (p : A -> bool) (f : A -> R) l : suml (map f l) = suml (map f (filter (fun x => negb (p x)) l)) + suml (map f (filter p l)).
Proof. induction l as [|x l IH]; unfold suml in *; simpl; [ring|]. rewrite IH. destruct (p x); simpl; ring. Qed.
Lemma filter_none {A} (p : A -> bool) l : (forall x, In x l -> p x = false) -> filter p l = [].
Proof. induction l as [|x l IH]; intros H; simpl; [reflexivity|]. rewrite H by (left; auto). apply IH. intros; apply H; right; auto. Qed.
Lemma tables_are_bearings r : rfacts r -> filter has_table (r_elements r) = var_brgs r.
Proof.
  intros F. unfold r_elements. rewrite !filter_app.
  rewrite (filter_none _ (r_shaft r)), (filter_none _ (r_disk r)), (filter_none _ (r_pm r)).
  - rewrite app_nil_r. reflexivity.
  - intros e He. destruct (rf_pm _ F _ He) as (? & ? & ? & ->). reflexivity.
  - intros e He. destruct (rf_disk _ F _ He) as (? & ? & ? & ->). reflexivity.
  - intros e He. destruct (rf_shaft _ F _ He) as (? & ? & ? & ? & ->). reflexivity.
Qed.
Lemma nodup_map_inj {A B} (f : A -> B) l x y : NoDup (map f l) -> In x l -> In y l -> f x = f y -> x = y.
Proof.
  induction l as [|z l IH]; simpl; [tauto|]. intros N [->|Hx] [->|Hy] E; auto; inversion N as [|? ? N1 N2]; subst.
  - exfalso. apply N1. rewrite E. apply in_map; auto.
  - exfalso. apply N1. rewrite <- E. apply in_map; auto.
  - apply IH; auto.
Qed.
Lemma kept_tables r : rfacts r -> kept (map el_tag (var_brgs r)) (r_elements r) = filter (fun e => negb (has_table e)) (r_elements r).
Proof.
  intros F. unfold kept. apply filter_ext_in. intros e He. f_equal. rewrite <- (tables_are_bearings r F).
  destruct (has_table e) eqn:T.
  - apply existsb_exists. exists (el_tag e). split; [|apply String.eqb_refl]. apply in_map, filter_In. auto.
  - apply not_true_is_false. rewrite existsb_exists. intros (t & Ht & E). apply String.eqb_eq in E. apply in_map_iff in Ht as (e' & Et & He'). apply filter_In in He' as [He' T'].
    assert (e = e') by (apply (nodup_map_inj el_tag (r_elements r)); auto; [apply tags_unique_iff, rf_tags, F|congruence]). congruence.
Qed.
Lemma in_split_table r e : In e (r_elements r) -> In e (filter (fun e => negb (has_table e)) (r_elements r)) \/ In e (filter has_table (r_elements r)).
Proof. intros H. rewrite !filter_In. destruct (has_table e); simpl; auto. Qed.

(** the two-stage assembly is the assembly at the speed *)
Lemma two_stage spl r w0 w (f : (list R -> list R -> R -> R) -> R -> elem -> res (nat * mat)) A0 A : rfacts r ->
  (forall w, mkind spl w (f spl w)) -> (forall e, In e (r_elements r) -> has_table e = false -> f spl w0 e = f spl w e) ->
  assemble (r_ndof r) (r_dofs r) (f spl w0) (kept (map el_tag (var_brgs r)) (r_elements r)) mzero = Ok A0 ->
  assemble (r_ndof r) (r_dofs r) (f spl w) (var_brgs r) A0 = Ok A ->
  exists B, assemble (r_ndof r) (r_dofs r) (f spl w) (kept [] (r_elements r)) mzero = Ok B /\ forall i j, A i j = B i j.
Proof.
  intros F Hk Hc H0 H1. rewrite kept_tables in H0 by auto. rewrite <- (tables_are_bearings r F) in H1. rewrite kept_nil.
  destruct (assemble_ok _ _ _ _ _ _ H0) as [P0 E0]. destruct (assemble_ok _ _ _ _ _ _ H1) as [P1 E1].
  assert (X : exists B, assemble (r_ndof r) (r_dofs r) (f spl w) (r_elements r) mzero = Ok B).
  { apply assemble_intro. intros e He. destruct (in_split_table r e He) as [H|H]; [|apply P1, H].
    destruct (P0 e H) as (k & M & Hf & Hl). exists k, M. rewrite <- (Hc e He); [split; [exact Hf|exact Hl]|]. apply filter_In in H as [_ H]. destruct (has_table e); [discriminate|reflexivity]. }
  destruct X as [B HB]. exists B. split; [exact HB|]. intros i j.
  destruct (assemble_ok _ _ _ _ _ _ HB) as [_ EB].
  assert (ND := assembled_nodup spl w _ r _ _ _ F (Hk w) (incl_refl _) HB).
  rewrite EB by exact ND. rewrite E1 by (intros e He; apply filter_In in He as [He _]; auto). rewrite E0 by (intros e He; apply filter_In in He as [He _]; auto).
  rewrite (suml_filter has_table _ (r_elements r)). rewrite <- Rplus_assoc. f_equal. f_equal. apply suml_map_ext. intros e He. apply filter_In in He as [He T].
  assert (T' : has_table e = false) by (destruct (has_table e); [discriminate|reflexivity]).
  unfold el_size, el_mat. rewrite (Hc e He T'). reflexivity.
Qed.

(** ** the system function *)
Lemma varies_false l : varies l = false -> forall k, (k < length l)%nat -> nth k l 0 = hd 0 l.
Proof.
  intros H k Hk. unfold varies in H. destruct (Req_EM_T (nth k l 0) (hd 0 l)) as [E|N]; auto. exfalso.
  assert (T : existsb (fun x => if Req_EM_T x (hd 0 l) then false else true) l = true).
  { apply existsb_exists. exists (nth k l 0). split; [apply nth_In; auto|]. destruct (Req_EM_T _ _); [contradiction|reflexivity]. }
  congruence.
Qed.
Lemma mean_const l : varies l = false -> (0 < length l)%nat -> suml l / INR (length l) = hd 0 l.
Proof.
  intros H Hl. assert (E : forall x, In x l -> x = hd 0 l).
  { intros x Hx. apply In_nth with (d := 0) in Hx as (k & Hk & <-). apply varies_false; auto. }
  assert (S : forall c l, (forall x, In x l -> x = c) -> suml l = INR (length l) * c).
  { intros c l'. induction l' as [|y l' IH]; intros Hx; [simpl; unfold suml; simpl; ring|]. change (suml (y :: l')) with (y + suml l'). rewrite IH by (intros; apply Hx; right; auto).
    cbn [length]. rewrite S_INR. rewrite (Hx y) by (left; auto). ring. }
  rewrite (S _ _ E). field. apply not_0_INR. lia.
Qed.
Lemma forces_ok F nrow extra step dt s f : forces_at F nrow extra step dt s = Ok f -> (step < nrow)%nat /\ forall i, f i = F step i + match extra with None => 0 | Some g => g step dt s i end.
Proof.
  unfold forces_at. destruct (Nat.ltb_spec step nrow); [|discriminate]. intros [= <-]. split; auto. intros i. destruct extra; unfold vadd; ring.
Qed.
Lemma rotor_system_spec spl r sp F nrow t extra func step dt s M C K f : rfacts r -> (forall e, In e (r_brg r) -> built e) -> speed_given sp step ->
  rotor_system spl r sp F nrow t extra = Ok func -> func step dt s = Ok (M, C, K, f) ->
  let w := speed_at sp step in let a := accel_at sp t step in
  rotor_M spl r None = Ok M /\
  exists Cw Kw G K2, rotor_C spl r w [] = Ok Cw /\ rotor_K spl r w [] = Ok Kw /\ rotor_G spl r = Ok G /\ rotor_Ksdt r = Ok K2 /\
    (forall i j, C i j = Cw i j + w * G i j /\ K i j = Kw i j + a * K2 i j) /\
    (step < nrow)%nat /\ (forall i, f i = F step i + match extra with None => 0 | Some g => g step dt s i end).
Proof.
  intros Fr Bu Sg H Hs w a. unfold rotor_system in H. apply bind_ok in H as (M0 & HM & H). apply bind_ok in H as (G & HG & H). apply bind_ok in H as (K2 & HK2 & H).
  assert (Bu' : forall e, In e (r_elements r) -> built e).
  { intros e He. destruct e as [| |tg b|]; try exact I. apply Bu, rf_brg_in; auto. }
  assert (Const : var_brgs r = [] -> (forall w0, rotor_C spl r w0 [] = rotor_C spl r w []) /\ (forall w0, rotor_K spl r w0 [] = rotor_K spl r w [])).
  { intros E. rewrite <- (tables_are_bearings r Fr) in E.
    assert (T : forall e, In e (r_elements r) -> has_table e = false).
    { intros e He. destruct (has_table e) eqn:Te; auto. assert (I : In e (filter has_table (r_elements r))) by (apply filter_In; auto). rewrite E in I. destruct I. }
    assert (X : forall f g l acc, (forall e, In e l -> f e = g e) -> assemble (r_ndof r) (r_dofs r) f l acc = assemble (r_ndof r) (r_dofs r) g l acc).
    { intros f0 g l. induction l as [|e l IH]; intros acc Hl; simpl; [reflexivity|]. rewrite Hl by (left; auto). destruct (g e) as [km|]; simpl; [|reflexivity]. destruct (add_at _ _ _ _); simpl; [|reflexivity]. apply IH. intros; apply Hl; right; auto. }
    split; intros w0; unfold rotor_C, rotor_K; rewrite kept_nil; apply X; intros e He; apply built_const; auto. }
  destruct sp as [s0|l]; unfold accel_at in a; simpl in a, w.
  - apply bind_ok in H as (C1 & HC & H). apply bind_ok in H as (K1 & HK & H). injection H as <-.
    apply bind_ok in Hs as (f' & Hf & Hs). injection Hs as <- <- <- <-. apply forces_ok in Hf as [Hr Hf].
    split; [exact HM|]. exists C1, K1, G, K2. repeat (split; [first [exact HC|exact HK|exact HG|exact HK2]|]).
    split; [intros i j; unfold madd, mscale, a, w; split; ring|]. split; [exact Hr|exact Hf].
  - destruct (varies l) eqn:V.
    + destruct (negb _); [discriminate|]. destruct (var_brgs r) as [|v0 vb] eqn:EV.
      * apply bind_ok in H as (C1 & HC & H). apply bind_ok in H as (K1 & HK & H). injection H as <-.
        apply bind_ok in Hs as (f' & Hf & Hs). injection Hs as <- <- <- <-. apply forces_ok in Hf as [Hr Hf].
        destruct (Const eq_refl) as [CC CK]. rewrite CC in HC. rewrite CK in HK.
        split; [exact HM|]. exists C1, K1, G, K2. repeat (split; [first [exact HC|exact HK|exact HG|exact HK2]|]).
        split; [intros i j; unfold madd, mscale, a, w; split; ring|]. split; [exact Hr|exact Hf].
      * rewrite <- EV in H. apply bind_ok in H as (C0 & HC & H). apply bind_ok in H as (K0 & HK & H). injection H as <-.
        apply bind_ok in Hs as ([C1 K1] & HCK & Hs). apply bind_ok in Hs as (f' & Hf & Hs). injection Hs as <- <- <- <-. apply forces_ok in Hf as [Hr Hf].
        unfold assemble_C_K in HCK. apply bind_ok in HCK as (C1' & HC1 & HCK). apply bind_ok in HCK as (K1' & HK1 & HCK). injection HCK as -> ->. cbn [fst snd].
        destruct (two_stage spl r (suml l / INR (length l)) w el_C C0 C1 Fr (is_C spl) (fun e He T => built_const spl (suml l / INR (length l)) w e el_C el_C (Bu' e He) T ltac:(auto)) HC HC1) as (CB & HCB & EC).
        destruct (two_stage spl r (suml l / INR (length l)) w el_K K0 K1 Fr (is_K spl) (fun e He T => built_const spl (suml l / INR (length l)) w e el_K el_K (Bu' e He) T ltac:(auto)) HK HK1) as (KB & HKB & EK).
        split; [exact HM|]. exists CB, KB, G, K2. repeat (split; [first [exact HCB|exact HKB|exact HG|exact HK2]|]).
        split; [intros i j; unfold madd, mscale, a, w; rewrite EC, EK; split; ring|]. split; [exact Hr|exact Hf].
    + simpl in Sg. apply bind_ok in H as (C1 & HC & H). apply bind_ok in H as (K1 & HK & H). injection H as <-.
      apply bind_ok in Hs as (f' & Hf & Hs). injection Hs as <- <- <- <-. apply forces_ok in Hf as [Hr Hf].
      assert (Ew : suml l / INR (length l) = w) by (unfold w; rewrite mean_const, varies_false by (auto; lia); reflexivity). rewrite Ew in *.
      split; [exact HM|]. exists C1, K1, G, K2. repeat (split; [first [exact HC|exact HK|exact HG|exact HK2]|]).
      split; [intros i j; unfold madd, mscale, a; split; ring|]. split; [exact Hr|exact Hf].
Qed.

(** ** gradient *)
Lemma gradient_linear f t a b k : length f = length t -> (2 <= length f)%nat -> (k < length f)%nat ->
  (forall i j, (i < j < length t)%nat -> nth i t 0 < nth j t 0) -> (forall i, (i < length f)%nat -> nth i f 0 = a + b * nth i t 0) -> gradient f t k = b.
Proof.
  intros E H2 Hk Inc Hf. unfold gradient. destruct k as [|j].
  - pose proof (Inc 0%nat 1%nat ltac:(lia)). rewrite !Hf by lia. field. lra.
  - pose proof (Inc j (S j) ltac:(lia)). destruct (Nat.eqb_spec (S (S j)) (length f)) as [El|Nl].
    + rewrite !Hf by lia. field. lra.
    + pose proof (Inc (S j) (S (S j)) ltac:(lia)). rewrite !Hf by lia. field. lra.
Qed.
Lemma gradient_quadratic f t a b c k : length f = length t -> (0 < k)%nat -> (S k < length f)%nat ->
  (forall i j, (i < j < length t)%nat -> nth i t 0 < nth j t 0) -> (forall i, (i < length f)%nat -> nth i f 0 = a + b * nth i t 0 + c * nth i t 0 ^ 2) ->
  gradient f t k = b + 2 * c * nth k t 0.
Proof.
  intros E H0 Hk Inc Hf. unfold gradient. destruct k as [|j]; [lia|].
  destruct (Nat.eqb_spec (S (S j)) (length f)) as [El|Nl]; [lia|].
  pose proof (Inc j (S j) ltac:(lia)). pose proof (Inc (S j) (S (S j)) ltac:(lia)). rewrite !Hf by lia. field. lra.
Qed.

(** ** the integration runs *)
Lemma Ksdt_exists spl r w K : rfacts r -> rotor_K spl r w [] = Ok K -> is_ok (rotor_Ksdt r).
Proof.
  intros F HK. unfold rotor_Ksdt. destruct (Nat.eqb_spec (r_nd r) 6) as [E|]; [|eexists; reflexivity].
  unfold rotor_K in HK. rewrite kept_nil in HK. destruct (assemble_ok _ _ _ _ _ _ HK) as [P _].
  apply assemble_intro. intros e He.
  assert (Hin : In e (r_elements r)) by (unfold r_elements; rewrite app_assoc; apply in_or_app; left; exact He).
  destruct (P e Hin) as (k & M & Hf & Hl). pose proof (rf_fam _ F e Hin) as Fam. apply in_app_or in He as [He|He].
  - destruct (rf_shaft _ F _ He) as (six & n & tg & s & ->). destruct six; [|exfalso; cbn in Fam; rewrite Fam in E; discriminate]. simpl in Hf. injection Hf as <- <-. eexists _, _. split; [reflexivity|exact Hl].
  - destruct (rf_disk _ F _ He) as (six & tg & d & ->). destruct six; [|exfalso; cbn in Fam; rewrite Fam in E; discriminate]. simpl in Hf. injection Hf as <- <-. eexists _, _. split; [reflexivity|exact Hl].
Qed.
