(** Proofs about native frames, argument passing and static_call. *)

From Coq Require Import ZArith List Bool Lia ZifyBool ZifyNat.
From Verif Require Import Outcome BitLemmas VarIntModel CodecModel CodecSpec InterpModel InterpSpec InterpProofs.
Import ListNotations.
Local Open Scope Z_scope.

Lemma Forall2_len {A B} (R : A -> B -> Prop) l l' : Forall2 R l l' -> length l = length l'.
Proof. induction 1; cbn; congruence. Qed.

(** * Reading words *)

Lemma read_update_at mem a n v b j : a <= b -> b + Z.of_nat j <= a + Z.of_nat n ->
  le_value (bytes_of (update mem a n v) b j) = v / 2 ^ (8 * (b - a)) mod 2 ^ (8 * Z.of_nat j).
Proof.
  intros H1 H2. replace b with (a + (b - a)) at 1 by lia. apply read_update; lia.
Qed.

Lemma le_bytes_ext mem mem' a n : (forall x, a <= x < a + Z.of_nat n -> mem x = mem' x) ->
  le_value (bytes_of mem a n) = le_value (bytes_of mem' a n).
Proof. intros H. f_equal. now apply bytes_of_ext. Qed.

(** * Native frames *)

(** The save area at [frame] holds the given registers. *)
Definition saved (dbg : bool) (mem : memory) (frame ip sp fn : Z) : Prop :=
  le_value (bytes_of mem frame 8) = ip /\ le_value (bytes_of mem (frame + 8) 8) = sp /\
  le_value (bytes_of mem (frame + 16) 8) = fn /\
  (dbg = true -> le_value (bytes_of mem (frame + 32) 8) = 3735928559).

Lemma saved_ext dbg mem mem' frame ip sp fn :
  (forall a, frame <= a < frame + frame_bytes dbg -> mem' a = mem a) ->
  saved dbg mem frame ip sp fn -> saved dbg mem' frame ip sp fn.
Proof.
  intros H (A & B & C & D). unfold frame_bytes in H.
  unfold saved; conjs; try intros Hd; rewrite (le_bytes_ext _ mem); auto;
    intros x Hx; apply H; destruct dbg; try discriminate; lia.
Qed.

Lemma frame_bytes_facts dbg : frame_bytes dbg mod 8 = 0 /\ 32 <= frame_bytes dbg.
Proof. unfold frame_bytes; destruct dbg; cbn; lia. Qed.

Definition pushed (m : mach) (mem : memory) (sp : Z) : mach :=
  with_regs (with_mem m mem) (m_ip m) sp (m_fn m).

Lemma mod8 a k : a mod 8 = 0 -> (a - 8 * k) mod 8 = 0.
Proof. intros H. rewrite <- (Z_mod_plus_full (a - 8 * k) k 8). rewrite <- H. f_equal. lia. Qed.

Lemma stack_ok8 m a : m_stack m <= a -> a + 8 <= m_stack m + m_size m -> a mod 8 = 0 -> stack_ok m a 8.
Proof. intros. unfold stack_ok. conjs; auto. Qed.
Lemma stack_ok4 m a : m_stack m <= a -> a + 4 <= m_stack m + m_size m -> a mod 4 = 0 -> stack_ok m a 4.
Proof. intros. unfold stack_ok. conjs; auto. Qed.

(** All that can happen when a frame is entered. *)
Lemma enter_inv dbg m n m' : machine64 m -> enter_native_frame dbg m n = Ok m' ->
  exists mem', m' = pushed m mem' (frame_base dbg m n) /\
    (bytes_mem (m_mem m) -> bytes_mem mem') /\
    (forall a, ~ (m_sp m - frame_bytes dbg <= a < m_sp m) -> mem' a = m_mem m a) /\
    saved dbg mem' (m_sp m - frame_bytes dbg) (m_ip m) (m_sp m) (m_fn m) /\
    m_stack m <= m_sp m - frame_bytes dbg /\ m_sp m <= m_stack m + m_size m + (if dbg then 0 else 4) /\
    m_sp m mod 8 = 0.
Proof.
  intros (Hip & Hsp & Hfn) H. unfold enter_native_frame in H.
  apply bind_ok in H as ([m0 st] & H0 & H).
  assert (exists mem0, m0 = with_mem m mem0 /\ st = m_sp m - (if dbg then 8 else 0) /\
    (bytes_mem (m_mem m) -> bytes_mem mem0) /\
    (forall a, ~ (st <= a < m_sp m) -> mem0 a = m_mem m a) /\
    (dbg = true -> le_value (bytes_of mem0 st 8) = 3735928559) /\
    (dbg = true -> st + 8 <= m_stack m + m_size m)) as (mem0 & -> & Est & Hb0 & Ho0 & He0 & Hl0).
  { destruct dbg.
    - apply bind_ok in H0 as (m1 & E & [= <- <-]). apply store_inv in E as (K & ->).
      exists (update (m_mem m) (m_sp m - 8) 8 3735928559). conjs; auto.
      + intros Hb. now apply update_bytes.
      + intros a Ha. apply update_out. lia.
      + intros _. apply read_update_same. lia.
      + intros _. destruct K as (_ & K & _). lia.
    - injection H0 as <- <-. exists (m_mem m). conjs; auto; try lia; try discriminate.
      now destruct m. }
  apply bind_ok in H as ([] & Hal & H).
  destruct (Z.eqb_spec ((st - 32) mod 8) 0) as [Ea|]; [|discriminate]. clear Hal.
  apply bind_ok in H as (m1 & E1 & H). apply store_inv in E1 as (K1 & ->).
  apply bind_ok in H as (m2 & E2 & H). apply store_inv in E2 as (K2 & ->).
  apply bind_ok in H as (m3 & E3 & H). apply store_inv in E3 as (K3 & ->).
  apply bind_ok in H as (m4 & E4 & H). apply store_inv in E4 as (K4 & ->).
  injection H as <-. cbn [m_mem m_ip m_sp m_fn with_mem m_stack m_size] in *.
  unfold frame_base, frame_bytes.
  assert (m_sp m - (if dbg then 40 else 32) = st - 32) as Ef by (destruct dbg; lia).
  rewrite Ef. unfold SIZEOF_SLOT, pushed.
  assert (st <= m_sp m) as Hst by (destruct dbg; lia).
  rewrite (Z.mul_comm n 4). eexists. split; [reflexivity|].
  destruct K1 as (K11 & K12 & _), K3 as (K31 & _). cbn in K11, K12, K31.
  split; [|split; [|split; [|split; [lia|split]]]].
  - intros Hb. repeat apply update_bytes. auto.
  - intros a Ha. rewrite !update_out by lia. apply Ho0. lia.
  - unfold saved; conjs.
    + erewrite le_bytes_ext; [|intros x Hx; apply update_out; lia]. apply read_update_same. lia.
    + erewrite le_bytes_ext; [|intros x Hx; apply update_out; lia].
      erewrite le_bytes_ext; [|intros x Hx; apply update_out; lia]. apply read_update_same. lia.
    + apply read_update_same. lia.
    + intros Hd. specialize (He0 Hd). rewrite <- He0. replace (st - 32 + 32) with st by lia.
      apply le_bytes_ext. intros x Hx. rewrite !update_out by lia. reflexivity.
  - destruct dbg; [specialize (Hl0 eq_refl)|]; lia.
  - rewrite <- (mod8 _ (if dbg then -5 else -4) Ea). f_equal. destruct dbg; lia.
Qed.

Lemma enter_ok0 dbg m n : room dbg m 0 -> is_ok (enter_native_frame dbg m n).
Proof.
  intros (H1 & H2 & H3 & H4 & H5 & H6 & H7 & H8 & H9 & H10). unfold frame_bytes in H8.
  assert (forall st, st = m_sp m - (if dbg then 8 else 0) -> (st - 32) mod 8 = 0) as Ha.
  { intros st ->. rewrite <- (mod8 _ (if dbg then 5 else 4) H4). f_equal. destruct dbg; lia. }
  assert (forall mm a, (m_stack mm = m_stack m) -> m_size mm = m_size m ->
    m_sp m - (if dbg then 40 else 32) <= a -> a + 8 <= m_sp m -> a mod 8 = 0 -> stack_ok mm a 8) as St.
  { intros mm a E1 E2 G1 G2 G3. apply stack_ok8; rewrite ?E1, ?E2; lia. }
  unfold enter_native_frame.
  assert (exists m0, (if dbg
      then do m1 <- store_stack m (m_sp m - 8) 8 3735928559; Ok (m1, m_sp m - 8)
      else Ok (m, m_sp m)) = Ok (m0, m_sp m - (if dbg then 8 else 0)) /\
      m_stack m0 = m_stack m /\ m_size m0 = m_size m) as (m0 & -> & Es & Ez).
  { destruct dbg.
    - rewrite store_ok. 2: { apply St; auto; try lia. }
      cbn [bind]. eexists; conjs; reflexivity.
    - exists m. rewrite Z.sub_0_r. auto. }
  cbn [bind]. set (st := m_sp m - (if dbg then 8 else 0)).
  pose proof (Ha st eq_refl) as E. rewrite E. cbn [negb Z.eqb bind].
  assert (m_sp m - (if dbg then 40 else 32) = st - 32) as Ef by (unfold st; destruct dbg; lia).
  rewrite Ef in *.
  assert (st <= m_sp m) by (unfold st; destruct dbg; lia).
  assert (forall k, (st - 32 + 8 * k) mod 8 = 0) as Ek.
  { intros k. rewrite <- (mod8 _ (- k) E). f_equal. lia. }
  rewrite store_ok.
  2: { apply stack_ok4; rewrite ?Es, ?Ez; lia. }
  cbn [bind]. rewrite store_ok. 2: { apply St; cbn; auto; lia. }
  cbn [bind]. rewrite store_ok. 2: { apply St; cbn; auto; lia. }
  cbn [bind]. rewrite store_ok. 2: { apply St; cbn; auto; lia. }
  cbn [bind]. eexists; reflexivity.
Qed.

Lemma enter_ok dbg m n : room dbg m n -> is_ok (enter_native_frame dbg m n).
Proof. intros H. apply enter_ok0. unfold room in *. lia. Qed.

Lemma leave_inv dbg m n m' : leave_native_frame dbg m n = Ok m' ->
  exists ip sp fn, m' = with_regs m ip sp fn /\
    ip = le_value (bytes_of (m_mem m) (m_sp m + 4 * n) 8) /\
    sp = le_value (bytes_of (m_mem m) (m_sp m + 4 * n + 8) 8) /\
    fn = le_value (bytes_of (m_mem m) (m_sp m + 4 * n + 16) 8).
Proof.
  unfold leave_native_frame, SIZEOF_SLOT. rewrite (Z.mul_comm n 4). intros H.
  apply bind_ok in H as (sp & E1 & H). apply bind_ok in H as (ip & E2 & H). apply bind_ok in H as (fn & E3 & H).
  apply load_inv in E1 as (_ & ->), E2 as (_ & ->), E3 as (_ & ->).
  apply bind_ok in H as ([] & _ & [= <-]). eauto 10.
Qed.

Lemma leave_ok dbg m n ip sp fn : let frame := m_sp m + 4 * n in
  saved dbg (m_mem m) frame ip sp fn -> m_stack m <= frame ->
  frame + frame_bytes dbg <= m_stack m + m_size m -> frame mod 8 = 0 ->
  leave_native_frame dbg m n = Ok (with_regs m ip sp fn).
Proof.
  cbv zeta. intros (A & B & C & D) H1 H2 H3. unfold leave_native_frame, SIZEOF_SLOT. rewrite (Z.mul_comm n 4).
  assert (forall k, (m_sp m + 4 * n + 8 * k) mod 8 = 0) as Ek.
  { intros k. rewrite <- (mod8 _ (- k) H3). f_equal. lia. }
  unfold frame_bytes in H2.
  rewrite load_ok. 2: { apply stack_ok8; try (destruct dbg; lia). }
  cbn [bind]. rewrite load_ok. 2: { apply stack_ok8; try (destruct dbg; lia). }
  cbn [bind]. rewrite load_ok. 2: { apply stack_ok8; try (destruct dbg; lia). }
  cbn [bind]. rewrite A, B, C. destruct dbg; [|reflexivity].
  rewrite load_ok. 2: { apply stack_ok8; cbn [m_stack m_size with_regs]; lia. }
  cbn [bind m_mem with_regs]. rewrite D by auto. reflexivity.
Qed.

(** * Elements *)

Lemma words_taken_app a b : words_taken (a ++ b) = words_taken a + words_taken b.
Proof. induction a; cbn [words_taken app]; lia. Qed.
Lemma words_taken_pos a : 0 <= words_taken a.
Proof. induction a as [|t a]; cbn [words_taken]; [lia|destruct (wide t); lia]. Qed.

Lemma slot_sizeof_wide t : slot_sizeof t = if wide t then 2 else 1.
Proof. now destruct t. Qed.
Lemma sizeof_wide t : sizeof t = if wide t then 8%nat else 4%nat.
Proof. now destruct t. Qed.

Lemma slot_index_words ts : fold_right Z.add 0 (map slot_sizeof ts) = words_taken ts.
Proof. induction ts as [|t ts IH]; cbn [map fold_right words_taken]; [auto|]. now rewrite IH, slot_sizeof_wide. Qed.

Lemma slot_offset pre rest : nth_slot_offset (length pre) (pre ++ rest) = 4 * words_taken pre.
Proof.
  unfold nth_slot_offset, nth_slot_index, SIZEOF_SLOT.
  rewrite firstn_app, Nat.sub_diag, firstn_O, app_nil_r, firstn_all, slot_index_words. lia.
Qed.

Lemma arg_words_length ts xs : length xs = length ts -> Z.of_nat (length (arg_words ts xs)) = words_taken ts.
Proof.
  revert xs; induction ts as [|t ts IH]; intros [|x xs] H; cbn in H; try lia; [reflexivity|].
  specialize (IH xs ltac:(lia)). cbn [arg_words words_taken]. destruct t; cbn [length wide]; lia.
Qed.

Lemma set_elements_inv pre ts xs : length xs = length ts -> forall m base m',
  set_elements m base (pre ++ ts) (length pre) (combine ts xs) = Ok m' ->
  exists mem', m' = with_mem m mem' /\
    (bytes_mem (m_mem m) -> bytes_mem mem') /\
    (forall a, ~ (base + 4 * words_taken pre <= a < base + 4 * words_taken (pre ++ ts)) -> mem' a = m_mem m a).
Proof.
  revert pre xs; induction ts as [|t ts IH]; intros pre [|x xs] Hl m base m' H; cbn in Hl; try lia.
  - injection H as <-. exists (m_mem m). conjs; auto. now destruct m.
  - cbn [combine set_elements] in H. rewrite slot_offset in H.
    apply bind_ok in H as (m1 & E & H). apply store_inv in E as (_ & ->).
    replace (S (length pre)) with (length (pre ++ [t])) in H by (rewrite app_length; cbn; lia).
    replace (pre ++ t :: ts) with ((pre ++ [t]) ++ ts) in H by now rewrite <- app_assoc.
    apply IH in H; [|lia]. destruct H as (mem' & -> & Hb & Ho). cbn [m_mem with_mem] in *.
    exists mem'. split; [reflexivity|]. split; [intros; apply Hb; now apply update_bytes|].
    intros a Ha. rewrite words_taken_app in Ha. cbn [words_taken] in Ha. pose proof (words_taken_pos ts).
    rewrite Ho.
    + apply update_out. rewrite sizeof_wide. destruct (wide t); lia.
    + rewrite !words_taken_app. cbn [words_taken]. destruct (wide t); lia.
Qed.

(** Storing the arguments: the words of the frame are their words. *)
Lemma set_elements_ok pre ts xs : Forall2 value_ok ts xs -> forall m base,
  m_stack m <= base -> base mod 4 = 0 ->
  base + 4 * words_taken (pre ++ ts) <= m_stack m + m_size m ->
  aligned_args (base + 4 * words_taken pre) ts ->
  exists mem', set_elements m base (pre ++ ts) (length pre) (combine ts xs) = Ok (with_mem m mem') /\
    (bytes_mem (m_mem m) -> bytes_mem mem') /\
    (forall a, ~ (base + 4 * words_taken pre <= a < base + 4 * words_taken (pre ++ ts)) -> mem' a = m_mem m a) /\
    frame_words mem' (base + 4 * words_taken pre) (length (arg_words ts xs)) = arg_words ts xs.
Proof.
  intros Hv. revert pre. induction Hv as [|t x ts xs Hx Hv IH]; intros pre m base H1 H2 H3 H4.
  - exists (m_mem m). cbn. conjs; auto. now destruct m.
  - cbn [combine set_elements]. rewrite slot_offset.
    destruct H4 as (Ha & H4). rewrite words_taken_app in H3. cbn [words_taken] in H3.
    pose proof (words_taken_pos pre) as Hp. pose proof (words_taken_pos ts) as Ht.
    set (a := base + 4 * words_taken pre) in *.
    assert (a mod 4 = 0) as Ha4.
    { unfold a. rewrite (Z.mul_comm 4), Z_mod_plus_full. auto. }
    rewrite store_ok.
    2: { rewrite sizeof_wide. destruct (wide t); [apply stack_ok8|apply stack_ok4]; auto; unfold a; lia. }
    cbn [bind].
    replace (S (length pre)) with (length (pre ++ [t])) by (rewrite app_length; cbn; lia).
    replace (pre ++ t :: ts) with ((pre ++ [t]) ++ ts) by now rewrite <- app_assoc.
    assert (base + 4 * words_taken (pre ++ [t]) = a + if wide t then 8 else 4) as E1.
    { rewrite words_taken_app. cbn [words_taken]. unfold a. destruct (wide t); lia. }
    destruct (IH (pre ++ [t]) (with_mem m (update (m_mem m) a (sizeof t) x)) base) as (mem' & -> & Hb & Ho & Hw).
    { exact H1. } { exact H2. } { rewrite !words_taken_app. cbn [words_taken m_stack m_size with_mem]. lia. }
    { rewrite E1. exact H4. }
    cbn [m_mem with_mem] in *. rewrite E1 in Hw, Ho.
    exists mem'. split; [reflexivity|]. split; [intros; apply Hb; now apply update_bytes|].
    split.
    + intros c Hc. rewrite !words_taken_app in *. cbn [words_taken] in *. rewrite Ho.
      * apply update_out. rewrite sizeof_wide. destruct (wide t); lia.
      * rewrite ?words_taken_app. cbn [words_taken]. destruct (wide t); lia.
    + assert (forall k, a <= k < a + (if wide t then 8 else 4) -> mem' k = update (m_mem m) a (sizeof t) x k) as Hin.
      { intros k Hk. apply Ho. lia. }
      unfold value_ok in Hx. cbn [arg_words].
      destruct (wide t) eqn:W.
      * assert (arg_words (t :: ts) (x :: xs) = x mod 2 ^ 32 :: x / 2 ^ 32 :: arg_words ts xs) as Eq
          by (destruct t; try discriminate; reflexivity).
        cbn [arg_words] in Eq. rewrite Eq. cbn [length].
        change (S (S (length (arg_words ts xs)))) with (2 + length (arg_words ts xs))%nat.
        rewrite frame_words_app. change (4 * Z.of_nat 2) with 8. rewrite Hw.
        change (x mod 2 ^ 32 :: x / 2 ^ 32 :: arg_words ts xs) with ([x mod 2 ^ 32; x / 2 ^ 32] ++ arg_words ts xs).
        f_equal. unfold frame_words. cbn [seq map].
        rewrite sizeof_wide, W in Hin.
        f_equal; [|f_equal].
        -- rewrite (word_ext _ (update (m_mem m) a 8 x)) by (intros k Hk; apply Hin; lia).
           unfold word. rewrite read_update_at by lia. replace (a + 4 * Z.of_nat 0 - a) with 0 by lia.
           change (2 ^ (8 * 0)) with 1. now rewrite Z.div_1_r.
        -- rewrite (word_ext _ (update (m_mem m) a 8 x)) by (intros k Hk; apply Hin; lia).
           unfold word. rewrite read_update_at by lia. replace (a + 4 * Z.of_nat 1 - a) with 4 by lia.
           change (2 ^ (8 * 4)) with (2 ^ 32). apply Z.mod_small. split; [apply Z.div_pos; lia|].
           apply Z.div_lt_upper_bound; lia.
      * assert (arg_words (t :: ts) (x :: xs) = x :: arg_words ts xs) as Eq
          by (destruct t; try discriminate; reflexivity).
        cbn [arg_words] in Eq. rewrite Eq. cbn [length].
        change (S (length (arg_words ts xs))) with (1 + length (arg_words ts xs))%nat.
        rewrite frame_words_app. change (4 * Z.of_nat 1) with 4. rewrite Hw.
        change (x :: arg_words ts xs) with ([x] ++ arg_words ts xs).
        f_equal. unfold frame_words. cbn [seq map].
        rewrite sizeof_wide, W in Hin.
        f_equal. rewrite (word_ext _ (update (m_mem m) a 4 x)) by (intros k Hk; apply Hin; lia).
        replace (a + 4 * Z.of_nat 0) with a by lia. apply update_word_in. lia.
Qed.

(** * static_call *)

Lemma low_word mem a w : bytes_mem mem -> le_value (bytes_of mem a 8) = w ->
  le_value (bytes_of mem a 4) mod 256 = w mod 256.
Proof.
  intros Hb <-. unfold bytes_of. cbn [seq map le_value].
  match goal with |- (?x + 256 * ?y) mod 256 = (?x + 256 * ?z) mod 256 =>
    rewrite (Z.mul_comm 256 y), (Z.mul_comm 256 z), !Z_mod_plus_full end. reflexivity.
Qed.

Lemma types_equal_spec a : forall b, length a = length b -> (types_equal a b = true <-> a = b).
Proof.
  induction a as [|x a IH]; intros [|y b] H; cbn in *; try lia; [tauto|].
  destruct (Z.eqb_spec x y); cbn.
  - rewrite IH by lia. subst. split; congruence.
  - split; congruence.
Qed.

Lemma types_match_spec ts dyn : types_match ts dyn = true <-> map to_val_type ts = dyn.
Proof.
  unfold types_match. destruct (Nat.eqb_spec (length (map to_val_type ts)) (length dyn)); cbn [negb].
  - now apply types_equal_spec.
  - split; [discriminate|]. intros <-. congruence.
Qed.

Lemma get_elements_mem m base all i ts xs : get_elements m base all i ts = Ok xs -> length xs = length ts.
Proof.
  revert i xs; induction ts as [|t ts IH]; intros i xs H; cbn [get_elements] in H.
  - now injection H as <-.
  - apply bind_ok in H as (x & _ & H). apply bind_ok in H as (ys & H & [= <-]). cbn. f_equal. eauto.
Qed.

Lemma act_inv fuel m m' r : ab_interpret_func fuel m = Ok (m', r) ->
  exists a, run fuel m (m_ip m) = Ok (m', a) /\ r = match a with EXIT p => p | HALT => 0 end /\ m_halted m' = true.
Proof.
  unfold ab_interpret_func, ab_act. intros H.
  apply bind_ok in H as ([m1 r1] & H1 & H). apply bind_ok in H1 as ([m2 a] & H2 & H1).
  exists a. destruct a; injection H1 as <- <-; destruct (m_halted m2) eqn:E; try discriminate; injection H as <- <-; auto.
Qed.

Lemma static_call_inv fuel dbg m f As xs Rs r m' :
  machine64 m -> is_bytes (m_code m) ->
  own_regs (m_code m) (fi_body f - m_code_base m) (fi_nregs f) ->
  words_taken As <= fi_nregs f -> length xs = length As ->
  static_call fuel dbg m f As xs Rs = Ok (r, m') ->
  length r = length Rs /\ restored m m' (frame_base dbg m (fi_nregs f)) (m_sp m).
Proof.
  intros H64 Hc Hown Hn Hl H. unfold static_call in H.
  apply bind_ok in H as ([] & _ & H). apply bind_ok in H as ([] & _ & H).
  apply bind_ok in H as (m1 & H1 & H).
  destruct (enter_inv _ _ _ _ H64 H1) as (mem1 & -> & _ & Ho1 & Hs1 & Hlo & Hhi & Hal).
  apply bind_ok in H as (m2 & H2 & H). unfold set_stack_elements in H2.
  apply (set_elements_inv [] As xs Hl) in H2 as (mem2 & -> & _ & Ho2). cbn [app words_taken] in Ho2.
  apply bind_ok in H as ([m3 rp] & H3 & H). unfold enter_interpreter in H3.
  apply act_inv in H3 as (a & H3 & _ & _).
  cbn [pushed with_regs with_mem with_func m_ip m_mem m_sp] in *.
  set (n := fi_nregs f) in *. set (base := frame_base dbg m n) in *.
  apply (run_inv fuel _ _ _ _ (fi_body f - m_code_base m) n) in H3; auto; [|constructor].
  cbn [m_mem m_stack m_size m_code m_code_base m_ip m_sp m_fn m_func m_halted m_error with_mem with_regs with_func with_error pushed commit] in H3. destruct H3 as ((S1 & S2 & S3 & S4 & S5 & S6 & S7 & S8 & S9) & _).
  cbn [m_mem m_stack m_size m_code m_code_base m_ip m_sp m_fn m_func m_halted m_error with_mem with_regs with_func with_error pushed commit] in S1, S2, S3, S4, S5, S6, S8, S9.
  apply bind_ok in H as (ret & H4 & H). apply bind_ok in H as (m4 & H5 & [= <- <-]).
  split; [eapply get_elements_mem; eauto|].
  apply leave_inv in H5 as (ip & sp & fn & -> & Eip & Esp & Efn). rewrite S5 in Eip, Esp, Efn.
  pose proof (words_taken_pos As) as Hw.
  assert (base + 4 * n = m_sp m - frame_bytes dbg) as Eb by (unfold base, frame_base; lia).
  rewrite Eb in *.
  assert (forall k, m_sp m - frame_bytes dbg <= k -> m_mem m3 k = mem1 k) as Hk.
  { intros k Hk. rewrite S9 by lia. apply Ho2. lia. }
  assert (frame_bytes dbg >= 32) as Hfb by (unfold frame_bytes; destruct dbg; lia).
  destruct (saved_ext dbg mem1 (m_mem m3) _ _ _ _ (fun k Hk' => Hk k (proj1 Hk')) Hs1) as (A & B & C & _).
  unfold restored. cbn [m_mem m_stack m_size m_code m_code_base m_ip m_sp m_fn m_func m_halted m_error with_mem with_regs with_func with_error pushed commit]. rewrite Eip, Esp, Efn, A, B, C, S1, S2, S3, S4, S8.
  conjs; auto. intros k Hk'. unfold base in *. unfold frame_base in *.
  destruct (Z_lt_ge_dec k (m_sp m - frame_bytes dbg)).
  - rewrite S9 by lia. rewrite Ho2 by lia. rewrite Ho1 by lia. reflexivity.
  - rewrite Hk by lia. apply Ho1. lia.
Qed.

(** The state in which the callee's first instruction is executed. *)
Lemma call_entry dbg m f As xs :
  room dbg m (fi_nregs f) -> bytes_mem (m_mem m) -> Forall2 value_ok As xs ->
  words_taken As <= fi_nregs f -> aligned_args (frame_base dbg m (fi_nregs f)) As ->
  let n := fi_nregs f in let base := frame_base dbg m n in
  exists m1 mem, enter_native_frame dbg m n = Ok m1 /\
    set_stack_elements m1 (m_sp m1) As xs = Ok (pushed m mem base) /\
    bytes_mem mem /\
    frame_words mem base (Z.to_nat n) =
      arg_words As xs ++ frame_words (m_mem m) (base + 4 * words_taken As) (Z.to_nat (n - words_taken As)) /\
    saved dbg mem (m_sp m - frame_bytes dbg) (m_ip m) (m_sp m) (m_fn m) /\
    (forall a, ~ (base <= a < m_sp m) -> mem a = m_mem m a).
Proof.
  intros Hroom Hb Hv Hn Ha. cbv zeta. set (n := fi_nregs f) in *. set (base := frame_base dbg m n) in *.
  destruct (enter_ok _ _ _ Hroom) as (m1 & E1).
  destruct Hroom as (R1 & R2 & R3 & R4 & R5 & R6 & R7 & R8 & R9 & R10).
  pose proof (words_taken_pos As) as Hw.
  assert (frame_bytes dbg >= 32) as Hfb by (unfold frame_bytes; destruct dbg; lia).
  assert (machine64 m) as H64 by (unfold machine64; lia).
  destruct (enter_inv _ _ _ _ H64 E1) as (mem1 & -> & Hb1 & Ho1 & Hs1 & Hlo & Hhi & Hal).
  fold base in E1. 
  assert (base + 4 * n = m_sp m - frame_bytes dbg) as Eb by (unfold base, frame_base; lia).
  assert (base mod 4 = 0) as Hb4.
  { assert (frame_bytes dbg mod 8 = 0) by (unfold frame_bytes; now destruct dbg).
    unfold base, frame_base. lia. }
  destruct (set_elements_ok [] As xs Hv (pushed m mem1 base) base) as (mem2 & E2 & Hb2 & Ho2 & Hw2);
    cbn [app words_taken length pushed with_regs with_mem m_stack m_size]; auto; try lia.
  { rewrite Z.mul_0_r, Z.add_0_r. exact Ha. }
  cbn [app words_taken length] in E2, Ho2, Hw2. rewrite Z.mul_0_r, Z.add_0_r in Hw2, Ho2.
  cbn [pushed with_regs with_mem m_mem] in Hb2, Ho2.
  exists (pushed m mem1 base), mem2. conjs; auto.
  - assert (Forall2 value_ok As xs -> length xs = length As) as Hl by (intros X; symmetry; eapply Forall2_len; eauto).
    specialize (Hl Hv). pose proof (arg_words_length As xs Hl) as Hal'.
    replace (Z.to_nat n) with (length (arg_words As xs) + Z.to_nat (n - words_taken As))%nat by lia.
    rewrite frame_words_app, Hw2. f_equal. rewrite Hal'. apply frame_words_ext. intros a Hra.
    rewrite Ho2 by lia. apply Ho1. lia.
  - eapply saved_ext; [|exact Hs1]. intros a Hra. apply Ho2. lia.
  - intros a Hra. rewrite Ho2 by lia. apply Ho1. lia.
Qed.

Lemma read_tag_frame dbg mm f frame ip sp fn : m_func mm = Some f -> 0 <= 4 * fi_nregs f < 2 ^ 32 ->
  m_sp mm + 4 * fi_nregs f = frame -> stack_ok mm frame 4 -> bytes_mem (m_mem mm) ->
  saved dbg (m_mem mm) frame ip sp fn ->
  exists tag, read_tag mm = Ok tag /\ frame_kind tag = ip mod 256.
Proof.
  intros E Hn Ef Hs Hb (A & _). unfold read_tag. rewrite E.
  rewrite Z.mod_small by lia. replace (fi_nregs f * 4) with (4 * fi_nregs f) by lia. rewrite Ef.
  rewrite load_ok by auto. eexists. split; [reflexivity|]. unfold frame_kind. now apply low_word.
Qed.

(** The instructions a call ends with, and the pointer they return. *)
Definition exit_ptr (base : Z) (o : op) : option Z :=
  match o with
  | OHalt | OUnreachable | OReturn => Some 0
  | ORet32 s => Some (base + 4 * s)
  | _ => None
  end.
(** x32.return also looks at its register (for the trace). *)
Definition exit_reg (rs : list Z) (o : op) : Prop :=
  match o with ORet32 s => exists v, reg rs s v | _ => True end.
Definition needs_tag (o : op) : bool := match o with OReturn | ORet32 _ => true | _ => false end.

Section Call.
Variables (dbg : bool) (m : mach) (f : finst) (As Rs : list ctype) (xs : list Z).
Let n := fi_nregs f.
Let base := frame_base dbg m n.
Let cb := m_code_base m.
Hypotheses (Hroom : room dbg m n) (Hb : bytes_mem (m_mem m)) (Hv : Forall2 value_ok As xs)
  (Hn : words_taken As <= n) (Ha : aligned_args base As) (Hh : m_halted m = true)
  (HA : map to_val_type As = ft_args (fi_type f)) (HR : map to_val_type Rs = ft_rets (fi_type f)).

Definition entry_regs : list Z :=
  arg_words As xs ++ frame_words (m_mem m) (base + 4 * words_taken As) (Z.to_nat (n - words_taken As)).

Lemma exit_reg_ok mm p s q rs : op_at (m_code m) p (ORet32 s) q -> exit_reg rs (ORet32 s) ->
  frame_words (m_mem mm) base (Z.to_nat n) = rs -> m_sp mm = base -> m_stack mm = m_stack m -> m_size mm = m_size m ->
  stack_ok mm (m_sp mm + 4 * s) 4.
Proof.
  intros Ho (v & Hr) <- Ep Es Ez. pose proof (op_regs _ _ _ _ s Ho ltac:(cbn; auto)) as Hs.
  apply reg_frame in Hr as (L & _); [|lia].
  pose proof Hroom as (R1 & R2 & R3 & R4 & R5 & R6 & R7 & R8 & R9 & R10).
  assert (frame_bytes dbg mod 8 = 0 /\ 32 <= frame_bytes dbg) as (F1 & F2) by apply frame_bytes_facts.
  rewrite Ep. apply stack_ok4; rewrite ?Es, ?Ez; unfold base, frame_base; fold n; lia.
Qed.

(** Reading the results after a run that ended in memory [mem], and leaving the frame. *)
Lemma finish mem mm ptr r : saved dbg mem (m_sp m - frame_bytes dbg) (m_ip m) (m_sp m) (m_fn m) ->
  m_mem mm = mem -> m_stack mm = m_stack m -> m_size mm = m_size m -> m_sp mm = base ->
  get_stack_elements mm ptr Rs = Ok r ->
  (do ret <- get_stack_elements mm ptr Rs; do m0 <- leave_native_frame dbg mm n; Ok (ret, m0)) =
    Ok (r, with_regs mm (m_ip m) (m_sp m) (m_fn m)).
Proof.
  intros Hs Em Es Ez Ep Er. rewrite Er. cbn [bind].
  pose proof Hroom as (R1 & R2 & R3 & R4 & R5 & R6 & R7 & R8 & R9 & R10).
  assert (frame_bytes dbg mod 8 = 0 /\ 32 <= frame_bytes dbg) as (F1 & F2) by apply frame_bytes_facts.
  assert (m_sp mm + 4 * n = m_sp m - frame_bytes dbg) as Eb by (rewrite Ep; unfold base, frame_base; lia).
  rewrite (leave_ok dbg mm n (m_ip m) (m_sp m) (m_fn m)); [reflexivity| | | |]; rewrite ?Eb, ?Em, ?Es, ?Ez; auto; lia.
Qed.

Lemma call_reach p rs o q ptr :
  asteps (m_code m) (fi_body f - cb, entry_regs) (p, rs) -> op_at (m_code m) p o q ->
  exit_ptr base o = Some ptr -> exit_reg rs o -> (needs_tag o = true -> m_ip m mod 256 = 0) ->
  exists fuel0 mm,
    (forall fuel, (fuel0 <= fuel)%nat -> static_call fuel dbg m f As xs Rs =
       do ret <- get_stack_elements mm ptr Rs; Ok (ret, with_regs mm (m_ip m) (m_sp m) (m_fn m))) /\
    restored m (with_regs mm (m_ip m) (m_sp m) (m_fn m)) base (m_sp m) /\
    frame_words (m_mem mm) base (Z.to_nat n) = rs /\ m_stack mm = m_stack m /\ m_size mm = m_size m /\
    saved dbg (m_mem mm) (m_sp m - frame_bytes dbg) (m_ip m) (m_sp m) (m_fn m) /\ bytes_mem (m_mem mm).
Proof.
  intros Hsteps Ho Hptr Hxr Htag.
  pose proof Hroom as (R1 & R2 & R3 & R4 & R5 & R6 & R7 & R8 & R9 & R10).
  assert (frame_bytes dbg mod 8 = 0 /\ 32 <= frame_bytes dbg) as (F1 & F2) by apply frame_bytes_facts.
  pose proof (call_entry dbg m f As xs Hroom Hb Hv Hn Ha) as CE. cbv zeta in CE.
  destruct CE as (m1 & mem & E1 & E2 & Hbm & Hfw & Hsv & Hout).
  fold n base in E1, E2, Hfw, Hout.
  set (m2 := with_regs (with_func (pushed m mem base) f) (fi_body f) base 0).
  assert (frame_in m2 (Z.of_nat (Z.to_nat n))) as Hfi.
  { unfold frame_in, m2; cbn [m_stack m_sp m_size with_regs with_func pushed with_mem].
    unfold base, frame_base. lia. }
  destruct (sim_steps _ _ _ Hsteps m2 (Z.to_nat n)) as (k & mem' & Hrun & Hb' & Hw' & Ho').
  { reflexivity. } { exact Hbm. } { exact Hfi. } { exact Hfw. }
  cbn [fst snd] in Hrun, Hw'. change (m_code_base m2) with cb in Hrun. change (m_sp m2) with base in *.
  change (m_mem m2) with mem in Ho'.
  assert (saved dbg mem' (m_sp m - frame_bytes dbg) (m_ip m) (m_sp m) (m_fn m)) as Hsv'.
  { eapply saved_ext; [|exact Hsv]. intros a Hra. apply Ho'. unfold base, frame_base. lia. }
  set (m3 := with_mem m2 mem') in *.
  assert (needs_tag o = true -> exists tag, read_tag m3 = Ok tag /\ frame_kind tag = 0) as Hrt.
  { intros Hnt. rewrite <- (Htag Hnt).
    eapply (read_tag_frame dbg m3 f (m_sp m - frame_bytes dbg)); try reflexivity; auto.
    - fold n. lia.
    - unfold m3, m2, pushed; cbn [m_sp with_mem with_regs with_func]. unfold base, frame_base. fold n. lia.
    - apply stack_ok4; unfold m3, m2, pushed; cbn [m_stack m_size with_mem with_regs with_func]; lia.
    - exact Hsv'. }
  assert (exists m4 a, step m3 (cb + p) = Ok (m4, inr a) /\
    ptr = (match a with EXIT z => z | HALT => 0 end) /\
    (m4 = commit m3 (cb + p) \/ m4 = with_error (commit m3 (cb + p)))) as (m4 & a & Es4 & Ep4 & Em4).
  { assert (op_at (m_code m3) (cb + p - m_code_base m3) o q) as Ho3.
    { unfold m3, m2, pushed; cbn. fold cb. now replace (cb + p - cb) with p by lia. }
    destruct o; cbn in Hptr; try discriminate; injection Hptr as <-.
    - eexists _, _. split; [eapply step_halt; eauto|]. auto.
    - eexists _, _. split; [eapply step_unreachable; eauto|]. auto.
    - destruct (Hrt eq_refl) as (tag & T1 & T2). eexists _, _.
      split; [erewrite step_return by eauto; rewrite T1; cbn [bind]; rewrite T2; reflexivity|]. auto.
    - destruct (Hrt eq_refl) as (tag & T1 & T2). eexists _, _.
      split; [erewrite step_ret32 by eauto; rewrite load_ok by (eapply exit_reg_ok; eauto); cbn [bind]; rewrite T1; cbn [bind]; rewrite T2; reflexivity|]. auto. }
  assert (m_mem m4 = mem' /\ m_stack m4 = m_stack m /\ m_size m4 = m_size m /\ m_sp m4 = base /\ m_halted m4 = true /\
    m_code m4 = m_code m /\ m_code_base m4 = m_code_base m) as (G1 & G2 & G3 & G4 & G5 & G6 & G7)
    by (destruct Em4 as [-> | ->]; cbn; auto 10).
  exists (k + 1)%nat, m4. split; [|split].
  - intros fuel Hfuel. unfold static_call.
    rewrite (proj2 (types_match_spec As _) HA), (proj2 (types_match_spec Rs _) HR). cbn [ab_assert bind].
    fold n. rewrite E1. cbn [bind]. rewrite E2. cbn [bind].
    unfold enter_interpreter, ab_interpret_func, ab_act.
    change (m_sp (pushed m mem base)) with base. fold m2.
    change (m_ip m2) with (fi_body f).
    replace fuel with (k + S (fuel - k - 1))%nat by lia.
    replace (fi_body f) with (cb + (fi_body f - cb)) at 1 by lia. rewrite Hrun.
    fold m3. cbn [run]. rewrite Es4. cbn [bind].
    assert ((match a with EXIT ret => Ok (m4, ret) | HALT => Ok (m4, 0) end) = Ok (m4, ptr)) as ->
      by (rewrite Ep4; now destruct a).
    cbn [bind]. rewrite G5. cbn [bind].
    destruct (get_stack_elements m4 ptr Rs) as [ret| | | |] eqn:Er; [|reflexivity..].
    pose proof (finish mem' m4 ptr ret Hsv' G1 G2 G3 G4 Er) as Fin. rewrite Er in Fin. exact Fin.
  - unfold restored; cbn [m_mem m_stack m_size m_code m_code_base m_ip m_sp m_fn m_func m_halted m_error with_mem with_regs with_func with_error pushed commit]. rewrite G2, G3, G6, G7, Hh. conjs; auto.
    intros x Hx. rewrite G1. rewrite Ho' by (unfold base, frame_base in *; lia). now apply Hout.
  - rewrite G1. auto 10.
Qed.

Lemma call_run_saved p rs o q ptr :
  asteps (m_code m) (fi_body f - cb, entry_regs) (p, rs) -> op_at (m_code m) p o q ->
  exit_ptr base o = Some ptr -> exit_reg rs o -> (needs_tag o = true -> m_ip m mod 256 = 0) ->
  (forall mm, frame_words (m_mem mm) base (Z.to_nat n) = rs -> m_stack mm = m_stack m -> m_size mm = m_size m ->
     saved dbg (m_mem mm) (m_sp m - frame_bytes dbg) (m_ip m) (m_sp m) (m_fn m) ->
     is_ok (get_stack_elements mm ptr Rs)) ->
  exists fuel0 r m', (forall fuel, (fuel0 <= fuel)%nat -> static_call fuel dbg m f As xs Rs = Ok (r, m')) /\
    restored m m' base (m_sp m) /\
    exists mm, frame_words (m_mem mm) base (Z.to_nat n) = rs /\ m_stack mm = m_stack m /\
      m_size mm = m_size m /\ saved dbg (m_mem mm) (m_sp m - frame_bytes dbg) (m_ip m) (m_sp m) (m_fn m) /\
      get_stack_elements mm ptr Rs = Ok r.
Proof.
  intros Hsteps Ho Hptr Hxr Htag Hget.
  destruct (call_reach p rs o q ptr Hsteps Ho Hptr Hxr Htag) as (fuel0 & mm & H1 & H2 & M1 & M2 & M3 & M4 & _).
  destruct (Hget mm) as (r & Er); auto.
  exists fuel0, r, (with_regs mm (m_ip m) (m_sp m) (m_fn m)). split; [|split; [auto|]].
  - intros fuel Hf. rewrite (H1 fuel Hf), Er. reflexivity.
  - exists mm. auto 10.
Qed.

Lemma call_run p rs o q ptr :
  asteps (m_code m) (fi_body f - cb, entry_regs) (p, rs) -> op_at (m_code m) p o q ->
  exit_ptr base o = Some ptr -> exit_reg rs o -> (needs_tag o = true -> m_ip m mod 256 = 0) ->
  (forall mm, frame_words (m_mem mm) base (Z.to_nat n) = rs -> m_stack mm = m_stack m -> m_size mm = m_size m ->
     is_ok (get_stack_elements mm ptr Rs)) ->
  exists fuel0 r m', (forall fuel, (fuel0 <= fuel)%nat -> static_call fuel dbg m f As xs Rs = Ok (r, m')) /\
    restored m m' base (m_sp m) /\
    exists mm, frame_words (m_mem mm) base (Z.to_nat n) = rs /\ m_stack mm = m_stack m /\
      m_size mm = m_size m /\ get_stack_elements mm ptr Rs = Ok r.
Proof.
  intros Hsteps Ho Hptr Hxr Htag Hget.
  destruct (call_run_saved p rs o q ptr Hsteps Ho Hptr Hxr Htag) as (fuel0 & r & m' & H1 & H2 & mm & M1 & M2 & M3 & _ & M4); [auto|].
  exists fuel0, r, m'. split; [auto|]. split; [auto|]. exists mm. auto.
Qed.

(** A native frame whose saved instruction pointer does not end in a zero byte. *)
Lemma call_bad_tag p rs o q fuel :
  asteps (m_code m) (fi_body f - cb, entry_regs) (p, rs) -> op_at (m_code m) p o q ->
  needs_tag o = true -> exit_reg rs o -> m_ip m mod 256 <> 0 ->
  static_call fuel dbg m f As xs Rs = OutOfFuel \/ static_call fuel dbg m f As xs Rs = Trap Assertion.
Proof.
  intros Hsteps Ho Hnt Hxr Hip.
  pose proof Hroom as (R1 & R2 & R3 & R4 & R5 & R6 & R7 & R8 & R9 & R10).
  assert (frame_bytes dbg mod 8 = 0 /\ 32 <= frame_bytes dbg) as (F1 & F2) by apply frame_bytes_facts.
  pose proof (call_entry dbg m f As xs Hroom Hb Hv Hn Ha) as CE. cbv zeta in CE.
  destruct CE as (m1 & mem & E1 & E2 & Hbm & Hfw & Hsv & Hout).
  fold n base in E1, E2, Hfw, Hout.
  set (m2 := with_regs (with_func (pushed m mem base) f) (fi_body f) base 0).
  assert (frame_in m2 (Z.of_nat (Z.to_nat n))) as Hfi.
  { unfold frame_in, m2; cbn [m_stack m_sp m_size with_regs with_func pushed with_mem].
    unfold base, frame_base. lia. }
  destruct (sim_steps _ _ _ Hsteps m2 (Z.to_nat n)) as (k & mem' & Hrun & Hb' & Hw' & Ho').
  { reflexivity. } { exact Hbm. } { exact Hfi. } { exact Hfw. }
  cbn [fst snd] in Hrun, Hw'. change (m_code_base m2) with cb in Hrun. change (m_sp m2) with base in *.
  change (m_mem m2) with mem in Ho'.
  assert (saved dbg mem' (m_sp m - frame_bytes dbg) (m_ip m) (m_sp m) (m_fn m)) as Hsv'.
  { eapply saved_ext; [|exact Hsv]. intros a Hra. apply Ho'. unfold base, frame_base. lia. }
  set (m3 := with_mem m2 mem') in *.
  assert (exists tag, read_tag m3 = Ok tag /\ frame_kind tag = m_ip m mod 256) as (tag & T1 & T2).
  { eapply (read_tag_frame dbg m3 f (m_sp m - frame_bytes dbg)); try reflexivity; auto.
    - fold n. lia.
    - unfold m3, m2, pushed; cbn [m_sp with_mem with_regs with_func]. unfold base, frame_base. fold n. lia.
    - apply stack_ok4; unfold m3, m2, pushed; cbn [m_stack m_size with_mem with_regs with_func]; lia.
    - exact Hsv'. }
  assert (step m3 (cb + p) = Trap Assertion) as Es4.
  { assert (op_at (m_code m3) (cb + p - m_code_base m3) o q) as Ho3.
    { unfold m3, m2, pushed; cbn. fold cb. now replace (cb + p - cb) with p by lia. }
    destruct o; cbn in Hnt; try discriminate.
    - erewrite step_return by eauto. rewrite T1; cbn [bind]; rewrite T2. unfold NATIVE.
      now replace (m_ip m mod 256 =? 0) with false by lia.
    - erewrite step_ret32 by eauto. rewrite load_ok by (eapply exit_reg_ok; eauto); cbn [bind]. rewrite T1; cbn [bind]; rewrite T2. unfold NATIVE.
      now replace (m_ip m mod 256 =? 0) with false by lia. }
  unfold static_call.
  rewrite (proj2 (types_match_spec As _) HA), (proj2 (types_match_spec Rs _) HR). cbn [ab_assert bind].
  fold n. rewrite E1. cbn [bind]. rewrite E2. cbn [bind].
  unfold enter_interpreter, ab_interpret_func, ab_act.
  change (m_sp (pushed m mem base)) with base. fold m2. change (m_ip m2) with (fi_body f).
  assert (forall j, (j <= k)%nat -> run j m2 (fi_body f) = OutOfFuel) as Hsmall.
  { assert (forall a b mm ip, run a mm ip <> OutOfFuel -> (a <= b)%nat -> run b mm ip = run a mm ip) as Mono.
    { induction a as [|a IHa]; intros b mm ip Hne Hle; [now cbn in Hne|].
      destruct b as [|b]; [lia|]. cbn [run] in *. destruct (step mm ip) as [[mm' [ip'|act]]| | | |]; cbn [bind] in *; auto.
      apply IHa; auto. lia. }
    intros j Hj. destruct (run j m2 (fi_body f)) eqn:E; auto; exfalso;
    (assert (run (k + 0) m2 (fi_body f) = run j m2 (fi_body f)) as X by (apply Mono; [congruence|lia]);
     replace (fi_body f) with (cb + (fi_body f - cb)) in X at 1 by lia; rewrite Hrun in X; cbn in X; congruence). }
  destruct (Nat.leb_spec fuel k).
  - left. rewrite Hsmall by auto. reflexivity.
  - right. replace fuel with (k + S (fuel - k - 1))%nat by lia.
    replace (fi_body f) with (cb + (fi_body f - cb)) at 1 by lia. rewrite Hrun. fold m3. cbn [run].
    rewrite Es4. reflexivity.
Qed.
End Call.
