(** Proofs about to_precision. *)
From Coq Require Import Reals ZArith Lra Lia Psatz Ascii String List Bool.
From Verif Require Import PyErr Num Vec Shapes Csg Optics General DecSpec XReal ElemXr.
Import ListNotations.
Local Open Scope Z_scope.

(* ---- digit strings ---- *)
Fixpoint all_digits (s : string) : bool := match s with EmptyString => true | String c s => match digit_value c with Some _ => all_digits s | None => false end end.
Fixpoint dval (s : string) (acc : Z) : Z := match s with EmptyString => acc | String c s => match digit_value c with Some d => dval s (10 * acc + d) | None => acc end end.
Definition stops (s : string) : Prop := match s with EmptyString => True | String c _ => digit_value c = None end.
Lemma read_all s : forall rest acc k, all_digits s = true -> stops rest -> read_digits (s ++ rest) acc k = (dval s acc, (k + String.length s)%nat, rest).
Proof.
  induction s as [|c s IH]; intros rest acc k A H.
  - cbn. rewrite Nat.add_0_r. destruct rest as [|c rest]; [reflexivity|]. cbn in H. cbn. rewrite H. reflexivity.
  - cbn in A |- *. destruct (digit_value c) as [d|]; [|discriminate]. rewrite IH by assumption. do 2 f_equal. lia.
Qed.
Lemma all_digits_app a b : all_digits (a ++ b) = (all_digits a && all_digits b)%bool.
Proof. induction a as [|c a IH]; cbn; [reflexivity|]. destruct (digit_value c); auto. Qed.
Lemma dval_app a : forall b acc, all_digits a = true -> dval (a ++ b) acc = dval b (dval a acc).
Proof. induction a as [|c a IH]; intros b acc A; cbn in *; [reflexivity|]. destruct (digit_value c); [auto|discriminate]. Qed.
Lemma length_app a b : String.length (a ++ b) = (String.length a + String.length b)%nat.
Proof. induction a; cbn; auto. Qed.
Lemma digit_digit d : 0 <= d < 10 -> digit_value (digit d) = Some d.
Proof.
  intros H. unfold digit_value, digit. rewrite nat_ascii_embedding by lia. rewrite (proj2 (Z.leb_le _ _)), (proj2 (Z.leb_le _ _)) by lia. cbn [andb]. f_equal. lia.
Qed.
Lemma digits_ok f : forall n, 0 <= n < 10 ^ Z.of_nat f -> exists k, all_digits (nat_digits f n) = true /\ dval (nat_digits f n) 0 = n /\ String.length (nat_digits f n) = Datatypes.S k /\
  (n = 0 /\ k = 0%nat \/ 10 ^ Z.of_nat k <= n < 10 ^ Z.of_nat (Datatypes.S k)).
Proof.
  induction f as [|f IH]; intros n H.
  - assert (n = 0) by (cbn in H; lia). subst n. exists 0%nat. repeat split; auto.
  - cbn [nat_digits]. destruct (Z.ltb_spec n 10) as [L|L].
    + exists 0%nat. cbn [all_digits dval String.length]. rewrite digit_digit by lia. repeat split; auto; try lia.
    + rewrite Nat2Z.inj_succ, Z.pow_succ_r in H by lia. destruct (IH (n / 10)) as (k & A & D & Ln & B).
      { split; [apply Z.div_pos; lia|]. apply Z.div_lt_upper_bound; lia. }
      exists (Datatypes.S k). assert (M := Z.mod_pos_bound n 10 ltac:(lia)). assert (Q := Z.div_mod n 10 ltac:(lia)).
      rewrite all_digits_app, A, dval_app, D, length_app, Ln by assumption. cbn [andb all_digits dval String.length]. rewrite digit_digit by lia. repeat split; try lia.
      right. assert (1 <= n / 10) by (apply Z.div_le_lower_bound; lia). destruct B as [(B & _)|B]; [lia|].
      rewrite Nat2Z.inj_succ, Z.pow_succ_r by lia. rewrite (Nat2Z.inj_succ (Datatypes.S k)), Z.pow_succ_r by lia. lia.
Qed.
Lemma str_nat_ok n : 0 <= n -> exists k, all_digits (str_nat n) = true /\ dval (str_nat n) 0 = n /\ String.length (str_nat n) = Datatypes.S k /\
  (n = 0 /\ k = 0%nat \/ 10 ^ Z.of_nat k <= n < 10 ^ Z.of_nat (Datatypes.S k)).
Proof.
  intros H. unfold str_nat. apply digits_ok. split; [lia|]. destruct (Z.eq_dec n 0) as [->|N]; [reflexivity|]. assert (L := Z.log2_spec n ltac:(lia)). assert (P := Z.log2_nonneg n).
  rewrite Nat2Z.inj_succ, Z2Nat.id by lia. eapply Z.lt_le_trans; [apply L|]. apply Z.pow_le_mono_l. lia.
Qed.
Lemma str_nat_length n p : 1 <= p -> 10 ^ (p - 1) <= n < 10 ^ p -> String.length (str_nat n) = Z.to_nat p.
Proof.
  intros Hp H. assert (0 < 10 ^ (p - 1)) by (apply Z.pow_pos_nonneg; lia). destruct (str_nat_ok n ltac:(lia)) as (k & _ & _ & L & [B|B]); [lia|]. rewrite L.
  assert (Z.of_nat k < p) by (apply (Z.pow_lt_mono_r_iff 10); lia). assert (p - 1 < Z.of_nat (Datatypes.S k)) by (apply (Z.pow_lt_mono_r_iff 10); lia). lia.
Qed.
Lemma zeros_ok k : all_digits (zeros k) = true /\ dval (zeros k) 0 = 0 /\ String.length (zeros k) = k.
Proof. induction k as [|k (A & D & L)]; cbn; auto. Qed.

(* ---- splitting ---- *)
Lemma sub_all s : substring 0 (String.length s) s = s.
Proof. induction s; cbn; [reflexivity|]. now f_equal. Qed.
Lemma split_at a : forall s, (a <= String.length s)%nat -> (upto a s ++ substring a (String.length s - a) s = s)%string /\ String.length (upto a s) = a /\ String.length (substring a (String.length s - a) s) = (String.length s - a)%nat.
Proof.
  unfold upto. induction a as [|a IH]; intros s L.
  - rewrite Nat.sub_0_r, sub_all. destruct s; auto.
  - destruct s as [|c s]; [cbn in L; lia|]. cbn in L |- *. destruct (IH s ltac:(lia)) as (E & L1 & L2). rewrite E, L1. auto.
Qed.
Lemma eqb_digit c x : all_digits (String c x) = true -> forall y, digit_value y = None -> Ascii.eqb c y = false.
Proof. cbn. intros A y Hy. destruct (Ascii.eqb_spec c y); [|reflexivity]. subst. rewrite Hy in A. discriminate. Qed.
Lemma app_assoc_s (a b c : string) : ((a ++ b) ++ c = a ++ (b ++ c))%string.
Proof. induction a; cbn; [reflexivity|]. now f_equal. Qed.
Lemma app_nil_s (a : string) : (a ++ "" = a)%string. Proof. induction a; cbn; [reflexivity|]. now f_equal. Qed.

(* ---- the layout denotes digits * 10^(e - p + 1) ---- *)
Definition unsigned (s : string) : option (Z * Z) :=
  let '(a, na, s) := read_digits s 0 0 in
  if Nat.eqb na 0 then None else
  let '(m, nf, s) := match s with String c s' => if Ascii.eqb c "." then read_digits s' a 0 else (a, 0%nat, s) | EmptyString => (a, 0%nat, s) end in
  match s with
  | EmptyString => Some (m, - Z.of_nat nf)
  | String c s' =>
      if Ascii.eqb c "e" then
        let '(es, s') := split_sign s' in
        let '(k, nk, s') := read_digits s' 0 0 in
        if Nat.eqb nk 0 then None else match s' with EmptyString => Some (m, es * k - Z.of_nat nf) | _ => None end
      else None
  end.
Lemma numeral_unsigned s m e : s <> ""%string -> (forall c x, s = String c x -> digit_value c <> None) -> unsigned s = Some (m, e) ->
  numeral s = Some (m, e) /\ numeral ("-" ++ s) = Some (- m, e).
Proof.
  intros Hs Hd H. destruct s as [|c x]; [contradiction|]. specialize (Hd c x eq_refl).
  assert (S1 : split_sign (String c x) = (1, String c x)).
  { cbn. destruct (Ascii.eqb_spec c "-"); [subst; contradiction|]. destruct (Ascii.eqb_spec c "+"); [subst; contradiction|]. reflexivity. }
  assert (S2 : split_sign ("-" ++ String c x) = (-1, String c x)) by reflexivity.
  assert (G : forall s sg, split_sign s = (sg, String c x) -> numeral s = Some (sg * m, e)).
  { intros s sg E. unfold numeral. rewrite E. revert H. unfold unsigned. destruct (read_digits (String c x) 0 0) as [[a na] s1]. destruct (Nat.eqb na 0); [discriminate|].
    destruct (match s1 with EmptyString => _ | String c s' => _ end) as [[m' nf] s2]. destruct s2 as [|c2 s2].
    - intros H; injection H as <- <-. reflexivity.
    - destruct (Ascii.eqb c2 "e"); [|discriminate]. destruct (split_sign s2) as [es s3]. destruct (read_digits s3 0 0) as [[k nk] s4]. destruct (Nat.eqb nk 0); [discriminate|]. destruct s4; [|discriminate].
      intros H; injection H as <- <-. reflexivity. }
  rewrite (G _ _ S1), (G _ _ S2). split; do 2 f_equal; lia.
Qed.
Lemma read_app a rest acc k : all_digits a = true -> stops rest -> read_digits (a ++ rest) acc k = (dval a acc, (k + String.length a)%nat, rest).
Proof. apply read_all. Qed.
Lemma read_end a acc k : all_digits a = true -> read_digits a acc k = (dval a acc, (k + String.length a)%nat, ""%string).
Proof. intros A. rewrite <- (app_nil_s a) at 1. apply read_all; [assumption|exact I]. Qed.
Lemma sign_digits a s : all_digits a = true -> a <> ""%string -> split_sign (a ++ s) = (1, (a ++ s)%string).
Proof.
  destruct a as [|c a]; [congruence|]. intros A _. cbn. rewrite (eqb_digit c a A "-" eq_refl), (eqb_digit c a A "+" eq_refl). reflexivity.
Qed.
Lemma read_exponent e sgn : e < 0 /\ sgn = ""%string \/ 0 < e /\ sgn = "+"%string ->
  (let '(es, s') := split_sign (sgn ++ str_int e) in let '(k, nk, s') := read_digits s' 0 0 in (es * k, Nat.eqb nk 0, s')) = (e, false, ""%string).
Proof.
  intros [(L & ->)|(L & ->)]; unfold str_int.
  - rewrite (proj2 (Z.ltb_lt _ _)) by lia. destruct (str_nat_ok (- e) ltac:(lia)) as (k & A & D & Ln & _). cbn [append split_sign]. change (Ascii.eqb "-" "-") with true. cbn iota.
    rewrite read_end, D, Ln by assumption. cbn [Nat.eqb Nat.add]. do 2 f_equal. lia.
  - rewrite (proj2 (Z.ltb_ge _ _)) by lia. destruct (str_nat_ok e ltac:(lia)) as (k & A & D & Ln & _). cbn [append split_sign]. change (Ascii.eqb "+" "-") with false. change (Ascii.eqb "+" "+") with true. cbn iota.
    rewrite read_end, D, Ln by assumption. cbn [Nat.eqb Nat.add]. do 2 f_equal. lia.
Qed.
Lemma layout_ok m p e : 1 <= p -> all_digits m = true -> String.length m = Z.to_nat p -> unsigned (layout m p e) = Some (dval m 0, e - p + 1) /\
  exists c x, layout m p e = String c x /\ digit_value c <> None.
Proof.
  intros Hp A L. unfold layout.
  assert (C0 : forall a s, all_digits a = true -> (0 < String.length a)%nat -> exists c x, (a ++ s)%string = String c x /\ digit_value c <> None).
  { intros [|c a] s Ha La; [cbn in La; lia|]. exists c, (a ++ s)%string. split; [reflexivity|]. cbn in Ha. destruct (digit_value c); [discriminate|congruence]. }
  destruct ((e <? -2) || (p <=? e))%bool eqn:Sci.
  - assert (He : e < 0 /\ (if (0 <? e)%Z then "+" else "")%string = ""%string \/ 0 < e /\ (if (0 <? e)%Z then "+" else "")%string = "+"%string).
    { apply orb_true_iff in Sci. destruct (Z.ltb_spec 0 e); [auto|]. left. split; [|reflexivity]. destruct Sci as [S|S]; [apply Z.ltb_lt in S|apply Z.leb_le in S]; lia. }
    generalize dependent (if (0 <? e)%Z then "+" else "")%string. intros sgn He. assert (RE := read_exponent e sgn He).
    destruct (split_at 1 m ltac:(lia)) as (Em & L1 & L2). replace (String.length m - 1)%nat with (Z.to_nat p - 1)%nat in * by lia. set (a := upto 1 m) in *. set (b := substring 1 (Z.to_nat p - 1) m) in *.
    rewrite <- Em, all_digits_app in A. apply andb_true_iff in A. destruct A as [Aa Ab]. split; [|apply C0; [exact Aa|lia]].
    rewrite <- Em, dval_app by assumption. unfold unsigned.
    destruct (Z.ltb_spec 1 p) as [P|P].
    + rewrite read_app, L1 by (try exact I; assumption || reflexivity). cbn [Nat.add Nat.eqb append]. change (Ascii.eqb "." ".") with true. cbn iota.
      rewrite read_app, L2 by (try exact I; assumption || reflexivity). cbn [append]. change (Ascii.eqb "e" "e") with true. cbn iota.
      destruct (split_sign (sgn ++ str_int e)) as [es s']. destruct (read_digits s' 0 0) as [[k nk] s'']. injection RE as RE1 RE2 RE3. rewrite RE1, RE2, RE3. do 2 f_equal. lia.
    + assert (p = 1) by lia. subst p. change (Z.to_nat 1 - 1)%nat with 0%nat in L2. destruct b; [|discriminate]. cbn [append dval].
      rewrite read_app, L1 by (try exact I; assumption || reflexivity). cbn [Nat.add Nat.eqb append]. change (Ascii.eqb "e" ".") with false. change (Ascii.eqb "e" "e") with true. cbn iota.
      destruct (split_sign (sgn ++ str_int e)) as [es s']. destruct (read_digits s' 0 0) as [[k nk] s'']. injection RE as RE1 RE2 RE3. rewrite RE1, RE2, RE3. cbn. do 2 f_equal. lia.
  - apply orb_false_iff in Sci. destruct Sci as [S1 S2]. apply Z.ltb_ge in S1. apply Z.leb_gt in S2. destruct (Z.eqb_spec e (p - 1)) as [->|N].
    + split; [|rewrite <- (app_nil_s m); apply C0; [exact A|lia]]. unfold unsigned. rewrite read_end by assumption. rewrite (proj2 (Nat.eqb_neq _ _)) by lia. do 2 f_equal. lia.
    + destruct (Z.leb_spec 0 e) as [P|P].
      * rewrite (proj2 (Z.ltb_lt _ _)) by lia. destruct (split_at (Z.to_nat (e + 1)) m ltac:(lia)) as (Em & L1 & L2). unfold from. set (a := upto (Z.to_nat (e + 1)) m) in *. set (b := substring (Z.to_nat (e + 1)) _ m) in *.
        rewrite <- Em, all_digits_app in A. apply andb_true_iff in A. destruct A as [Aa Ab]. split; [|apply C0; [exact Aa|lia]]. rewrite <- Em, dval_app by assumption. unfold unsigned.
        rewrite read_app, L1 by (try exact I; assumption || reflexivity). rewrite (proj2 (Nat.eqb_neq _ _)) by lia. cbn [append]. change (Ascii.eqb "." ".") with true. cbn iota.
        rewrite read_end, L2 by assumption. do 2 f_equal. lia.
      * split; [|exists "0"%char; eexists; split; [reflexivity|discriminate]]. unfold unsigned. destruct (zeros_ok (Z.to_nat (- (e + 1)))) as (Az & Dz & Lz).
        change ("0." ++ zeros (Z.to_nat (- (e + 1))) ++ m)%string with ("0" ++ ("." ++ (zeros (Z.to_nat (- (e + 1))) ++ m)))%string. rewrite read_app by (try exact I; reflexivity). cbn [String.length Nat.add Nat.eqb append]. change (Ascii.eqb "." ".") with true. cbn iota.
        rewrite read_end by (rewrite all_digits_app, Az, A; reflexivity). change (dval "0" 0) with 0. rewrite dval_app, Dz, length_app, Lz, L by assumption. do 2 f_equal. lia.
Qed.

(* ---- the digits ---- *)
Local Open Scope R_scope.
Definition B (z : Z) : R := powerRZ 10 z.
Lemma B_pos z : 0 < B z. Proof. apply powerRZ_lt. lra. Qed.
Lemma B_add a b : B (a + b) = B a * B b. Proof. apply powerRZ_add. lra. Qed.
Lemma B_IZR k : (0 <= k)%Z -> B k = IZR (10 ^ k).
Proof. intros H. unfold B. rewrite <- (Z2Nat.id k) by lia. rewrite <- pow_powerRZ, <- pow_IZR. reflexivity. Qed.
Lemma mpow10 z : nmpow (nofZ 10) (nofZ z) = Ok (Fin (B z)).
Proof.
  change (nmpow (nofZ 10) (nofZ z)) with (xpow ValueError ValueError (Fin 10) (Fin (IZR z))). cbn [xpow]. destruct (Req_EM_T (IZR z) 0) as [E|E].
  - apply eq_IZR in E. subst z. reflexivity.
  - destruct (Rlt_dec 0 10); [|lra]. do 2 f_equal. symmetry. apply powerRZ_Rpower. lra.
Qed.
Lemma ln10_pos : 0 < ln 10. Proof. rewrite <- ln_1. apply ln_increasing; lra. Qed.
Lemma log_le x z : 0 < x -> (B z <= x <-> IZR z <= ln x / ln 10).
Proof.
  intros Hx. assert (P := ln10_pos). assert (E : ln (B z) = IZR z * ln 10).
  { unfold B. rewrite powerRZ_Rpower by lra. unfold Rpower. apply ln_exp. }
  split; intros H.
  - assert (ln (B z) <= ln x) by (destruct H as [H|H]; [left; apply ln_increasing; auto using B_pos|right; congruence]). apply Rmult_le_reg_r with (ln 10); [exact P|]. unfold Rdiv. rewrite Rmult_assoc, Rinv_l by lra. lra.
  - apply Rnot_lt_le. intros L. assert (ln x < ln (B z)) by (apply ln_increasing; auto). assert (ln x / ln 10 < IZR z); [|lra].
    apply Rmult_lt_reg_r with (ln 10); [exact P|]. unfold Rdiv. rewrite Rmult_assoc, Rinv_l by lra. lra.
Qed.
Lemma log_lt x z : 0 < x -> (x < B z <-> ln x / ln 10 < IZR z).
Proof. intros Hx. assert (H := log_le x z Hx). split; intros L; apply Rnot_le_lt; intros G; apply H in G; lra. Qed.
Lemma log_ge x z : 0 < x -> (x <= B z <-> ln x / ln 10 <= IZR z).
Proof.
  intros Hx. assert (P := ln10_pos). assert (E : ln (B z) = IZR z * ln 10).
  { unfold B. rewrite powerRZ_Rpower by lra. unfold Rpower. apply ln_exp. }
  split; intros H.
  - assert (ln x <= ln (B z)) by (destruct H as [H|H]; [left; apply ln_increasing; auto|right; congruence]). apply Rmult_le_reg_r with (ln 10); [exact P|]. unfold Rdiv. rewrite Rmult_assoc, Rinv_l by lra. lra.
  - apply Rnot_lt_le. intros L. assert (ln (B z) < ln x) by (apply ln_increasing; auto using B_pos). assert (IZR z < ln x / ln 10); [|lra].
    apply Rmult_lt_reg_r with (ln 10); [exact P|]. unfold Rdiv. rewrite Rmult_assoc, Rinv_l by lra. lra.
Qed.
Lemma log_gt x z : 0 < x -> (B z < x <-> IZR z < ln x / ln 10).
Proof. intros Hx. assert (H := log_ge x z Hx). split; intros L; apply Rnot_le_lt; intros G; apply H in G; lra. Qed.
Lemma trunc_log x : 0 < x -> let e := Rtrunc (ln x / ln 10) in
  (B e <= x < B (e + 1)) \/ (B (e - 1) < x <= B e).
Proof.
  intros Hx e. unfold e, Rtrunc. set (l := ln x / ln 10). destruct (Rlt_dec l 0).
  - assert (I := Int_part_bounds (- l)). set (k := Int_part (- l)) in *. right. rewrite log_gt, log_ge by assumption. fold l. rewrite minus_IZR, opp_IZR. lra.
  - left. assert (I := Int_part_bounds l). rewrite log_le, log_lt by assumption. fold l. rewrite plus_IZR. lra.
Qed.
Lemma floor_digits x p e : (1 <= p)%Z -> B e <= x < B (e + 1) -> let n := Int_part (x / B (e - p + 1)) in (10 ^ (p - 1) <= n < 10 ^ p)%Z.
Proof.
  intros Hp H n. assert (P := B_pos (e - p + 1)). assert (I := Int_part_bounds (x / B (e - p + 1))). fold n in I.
  assert (E1 : B e = IZR (10 ^ (p - 1)) * B (e - p + 1)) by (rewrite <- B_IZR, <- B_add by lia; f_equal; lia).
  assert (E2 : B (e + 1) = IZR (10 ^ p) * B (e - p + 1)) by (rewrite <- B_IZR, <- B_add by lia; f_equal; lia).
  assert (A1 : IZR (10 ^ (p - 1)) <= x / B (e - p + 1)). { apply Rmult_le_reg_r with (B (e - p + 1)); [exact P|]. unfold Rdiv. rewrite Rmult_assoc, Rinv_l by lra. lra. }
  assert (A2 : x / B (e - p + 1) < IZR (10 ^ p)). { apply Rmult_lt_reg_r with (B (e - p + 1)); [exact P|]. unfold Rdiv. rewrite Rmult_assoc, Rinv_l by lra. lra. }
  split; [|apply lt_IZR; lra]. apply Z.lt_succ_r. apply lt_IZR. rewrite succ_IZR. lra.
Qed.
Lemma round_step x t : 0 < t -> let n := Int_part (x / t) in
  (if nle (nabs (nsub (nmul (nadd (nofZ n) (nofZ 1)) (Fin t)) (Fin x))) (nabs (nsub (nmul (nofZ n) (Fin t)) (Fin x))) then (n + 1)%Z else n) = Int_part (x / t + 1 / 2).
Proof.
  intros Ht n. assert (I := Int_part_bounds (x / t)). fold n in I. rewrite !nofZ_fin, nadd_fin, !nmul_fin, !nsub_fin, !nabs_fin, nle_fin.
  set (q := x / t) in *. assert (E : x = q * t) by (unfold q; field; lra). rewrite E. symmetry.
  replace (Rabs (IZR n * t - q * t)) with ((q - IZR n) * t) by (rewrite Rabs_left1; nra). replace (Rabs ((IZR n + 1) * t - q * t)) with ((IZR n + 1 - q) * t) by (rewrite Rabs_right; nra).
  destruct (Rleb_spec ((IZR n + 1 - q) * t) ((q - IZR n) * t)) as [L|L].
  - assert (IZR n + 1 - q <= q - IZR n) by (apply Rmult_le_reg_r with t; assumption). apply Int_part_spec. rewrite plus_IZR. lra.
  - assert (q - IZR n < IZR n + 1 - q) by (apply Rnot_le_lt; intros G; apply L; apply Rmult_le_compat_r; lra). apply Int_part_spec. lra.
Qed.

Definition prec_body (sign : string) (x : xr) (p : Z) : Res string :=
    do l <- nlog10 x;
    do e <- ntrunc l;
    do tens <- nmpow (nofZ 10) (nofZ (e - p + 1)%Z);
    do n <- nfloor (ndiv x tens);
    do low <- nmpow (nofZ 10) (nofZ (p - 1)%Z);
    do (e, tens, n) <- (if nlt (nofZ n) low then
                          do tens <- nmpow (nofZ 10) (nofZ (e - 1 - p + 1)%Z);
                          do n <- nfloor (ndiv x tens);
                          Ok ((e - 1)%Z, tens, n)
                        else Ok (e, tens, n));
    let n := if nle (nabs (nsub (nmul (nadd (nofZ n) (nofZ 1)) tens) x)) (nabs (nsub (nmul (nofZ n) tens) x)) then (n + 1)%Z else n in
    do high <- nmpow (nofZ 10) (nofZ p);
    let '(n, e) := if nle high (nofZ n) then (PFloat (ndiv (nofZ n) (nofZ 10)), (e + 1)%Z) else (PInt n, e) in
    do m <- fmt_g p n;
    Ok (sign ++ layout m p e)%string.
Lemma log10_fin x : 0 < x -> nlog10 (Fin x) = Ok (Fin (ln x / ln 10)).
Proof. intros H. cbn [nlog10 Elem_xr]. destruct (Rlt_dec 0 x); [reflexivity|contradiction]. Qed.
Lemma fmt_int p n : (1 <= p)%Z -> (10 ^ (p - 1) <= n < 10 ^ p)%Z -> fmt_g p (@PInt xr n) = Ok (str_nat n).
Proof.
  intros Hp H. assert (0 < 10 ^ (p - 1))%Z by (apply Z.pow_pos_nonneg; lia). unfold fmt_g. rewrite (proj2 (Z.leb_le 1 p)), (proj2 (Z.leb_le 0 n)), (proj2 (Z.ltb_lt _ _)) by lia. reflexivity.
Qed.
Lemma body_spec sign x p : 0 < x -> (1 <= p)%Z -> exists n e, prec_body sign (Fin x) p = Ok (sign ++ layout (str_nat n) p e)%string /\
  (10 ^ (p - 1) <= n < 10 ^ p)%Z /\ n = Int_part (x / B (e - p + 1) + 1 / 2).
Proof.
  intros Hx Hp. unfold prec_body. rewrite log10_fin by assumption. cbn [bind]. change (ntrunc (Fin (ln x / ln 10))) with (@Ok Z (Rtrunc (ln x / ln 10))). cbn [bind].
  assert (T := trunc_log x Hx). cbv zeta in T. set (e0 := Rtrunc (ln x / ln 10)) in *.
  rewrite mpow10. cbn [bind]. rewrite ndiv_fin by (apply Rgt_not_eq, B_pos). change (nfloor (Fin ?a)) with (@Ok Z (Int_part a)). cbn [bind]. rewrite mpow10. cbn [bind].
  set (n0 := Int_part (x / B (e0 - p + 1))).
  (* the exponent after the correction *)
  assert (C : exists e, (if nlt (nofZ n0) (Fin (B (p - 1))) then
                          do tens <- nmpow (nofZ 10) (nofZ (e0 - 1 - p + 1)%Z);
                          do n <- nfloor (ndiv (Fin x) tens);
                          Ok ((e0 - 1)%Z, tens, n)
                        else Ok (e0, Fin (B (e0 - p + 1)), n0)) = Ok (e, Fin (B (e - p + 1)), Int_part (x / B (e - p + 1))) /\ B e <= x < B (e + 1)).
  { rewrite nofZ_fin, nlt_fin. assert (F := fun H => floor_digits x p e0 Hp H). cbv zeta in F. fold n0 in F. destruct (Rltb_spec (IZR n0) (B (p - 1))) as [L|L].
    - assert (NB : ~ (B e0 <= x < B (e0 + 1))). { intros H. apply F in H. rewrite B_IZR in L by lia. apply lt_IZR in L. lia. }
      exists (e0 - 1)%Z. rewrite mpow10. cbn [bind]. rewrite ndiv_fin by (apply Rgt_not_eq, B_pos). split; [reflexivity|]. replace (e0 - 1 + 1)%Z with e0 by lia.
      destruct T as [T|T]; [contradiction|]. destruct (Req_dec x (B e0)) as [E|E]; [|lra]. exfalso. apply NB. split; [lra|]. rewrite E, B_add. change (B 1) with (10 * 1). assert (P := B_pos e0). lra.
    - exists e0. split; [reflexivity|]. destruct T as [T|T]; [exact T|]. assert (Ex : x = B e0); [|split; [lra|]; rewrite Ex, B_add; change (B 1) with (10 * 1); assert (P := B_pos e0); lra].
      apply Rle_antisym; [lra|]. apply Rnot_lt_le. intros G. apply L. rewrite B_IZR by lia. assert (I := Int_part_bounds (x / B (e0 - p + 1))). fold n0 in I. 
      assert (P := B_pos (e0 - p + 1)). assert (E1 : B e0 = IZR (10 ^ (p - 1)) * B (e0 - p + 1)) by (rewrite <- B_IZR, <- B_add by lia; f_equal; lia).
      apply Rle_lt_trans with (x / B (e0 - p + 1)); [lra|]. apply Rmult_lt_reg_r with (B (e0 - p + 1)); [exact P|]. unfold Rdiv. rewrite Rmult_assoc, Rinv_l by lra. lra. }
  destruct C as (e & -> & He). cbn [bind]. rewrite round_step by apply B_pos. assert (F := floor_digits x p e Hp He). cbv zeta in F.
  set (q := x / B (e - p + 1)) in *. assert (I := Int_part_bounds q). assert (I2 := Int_part_bounds (q + 1 / 2)). set (n := Int_part (q + 1 / 2)) in *.
  assert (Hn : (Int_part q <= n <= Int_part q + 1)%Z). { split; apply Z.lt_succ_r, lt_IZR; rewrite succ_IZR; [|rewrite plus_IZR]; lra. }
  cbv zeta. rewrite mpow10. cbn [bind]. rewrite B_IZR, (nofZ_fin n), nle_fin by lia. destruct (Rleb_spec (IZR (10 ^ p)) (IZR n)) as [L|L].
  - apply le_IZR in L. assert (En : n = (10 ^ p)%Z) by lia. assert (Ep : (10 ^ p = 10 * 10 ^ (p - 1))%Z) by (rewrite <- Z.pow_succ_r by lia; f_equal; lia).
    assert (W : fmt_g p (PFloat (ndiv (Fin (IZR n)) (nofZ 10))) = fmt_g p (@PInt xr (10 ^ (p - 1)))).
    { unfold fmt_g. rewrite nofZ_fin, ndiv_fin, En, Ep, mult_IZR by lra. replace (10 * IZR (10 ^ (p - 1)) / 10) with (IZR (10 ^ (p - 1))) by field. cbn [nwhole Elem_xr]. unfold is_whole. rewrite Int_part_IZR, Reqb_true by reflexivity. reflexivity. }
    assert (0 < 10 ^ (p - 1))%Z by (apply Z.pow_pos_nonneg; lia).
    rewrite W, fmt_int by lia. cbn [bind]. exists (10 ^ (p - 1))%Z, (e + 1)%Z. split; [reflexivity|]. split; [lia|]. symmetry. apply Int_part_spec.
    replace (e + 1 - p + 1)%Z with ((e - p + 1) + 1)%Z by lia. rewrite B_add. change (B 1) with (10 * 1). assert (P := B_pos (e - p + 1)).
    replace (x / (B (e - p + 1) * (10 * 1))) with (q / 10) by (unfold q; field; lra). assert (Q : IZR (10 ^ p) = 10 * IZR (10 ^ (p - 1))) by (rewrite Ep, mult_IZR; reflexivity).
    rewrite En, Q in I2. destruct F as [_ F]. assert (F2 : IZR (Int_part q) <= 10 * IZR (10 ^ (p - 1)) - 1). { rewrite <- Q, <- minus_IZR. apply IZR_le. lia. } lra.
  - assert (n < 10 ^ p)%Z by (apply lt_IZR; lra). rewrite fmt_int by lia. cbn [bind]. exists n, e. split; [reflexivity|]. split; [lia|reflexivity].
Qed.
Lemma prec_pos x p : 0 < x -> to_precision (Fin x) p = prec_body "" (Fin x) p.
Proof. intros H. unfold to_precision. rewrite nofZ_fin, !neqb_fin, (Reqb_true x x), Reqb_false, nlt_fin, Rltb_false by lra. reflexivity. Qed.
Lemma prec_neg x p : 0 < x -> to_precision (Fin (- x)) p = prec_body "-" (Fin x) p.
Proof. intros H. unfold to_precision. rewrite nofZ_fin, !neqb_fin, (Reqb_true (- x) _), Reqb_false, nlt_fin, Rltb_true by lra. rewrite nopp_fin, Ropp_involutive. reflexivity. Qed.
(** what to_precision prints for a non-zero number *)
Lemma prec_spec x p : x <> 0 -> (1 <= p)%Z -> exists s m e, to_precision (Fin x) p = Ok s /\ numeral s = Some (m, e) /\
  (10 ^ (p - 1) <= Z.abs m < 10 ^ p)%Z /\ 0 < IZR m * x /\ Z.abs m = Int_part (Rabs x / powerRZ 10 e + 1 / 2).
Proof.
  intros Hx Hp. assert (Hpos : 0 < Rabs x) by (apply Rabs_pos_lt; exact Hx). destruct (Rlt_dec 0 x) as [P|P].
  - destruct (body_spec "" x p P Hp) as (n & e & E & Rg & En). assert (0 < 10 ^ (p - 1))%Z by (apply Z.pow_pos_nonneg; lia).
    destruct (str_nat_ok n ltac:(lia)) as (k & A & D & _). destruct (layout_ok (str_nat n) p e Hp A (str_nat_length n p Hp Rg)) as (U & c & y & Ec & Hc). rewrite D in U.
    destruct (numeral_unsigned (layout (str_nat n) p e) n (e - p + 1)) as [N _]; [rewrite Ec; discriminate|intros c' y' Q; rewrite Ec in Q; injection Q as <- _; exact Hc|exact U|].
    exists (layout (str_nat n) p e), n, (e - p + 1)%Z. rewrite prec_pos by assumption. rewrite Z.abs_eq by lia. rewrite Rabs_right by lra. repeat split; auto; try lia; try apply N.
    apply Rmult_lt_0_compat; [apply IZR_lt; lia|lra].
  - assert (P' : 0 < - x) by lra. destruct (body_spec "-" (- x) p P' Hp) as (n & e & E & Rg & En). assert (0 < 10 ^ (p - 1))%Z by (apply Z.pow_pos_nonneg; lia).
    destruct (str_nat_ok n ltac:(lia)) as (k & A & D & _). destruct (layout_ok (str_nat n) p e Hp A (str_nat_length n p Hp Rg)) as (U & c & y & Ec & Hc). rewrite D in U.
    destruct (numeral_unsigned (layout (str_nat n) p e) n (e - p + 1)) as [_ N]; [rewrite Ec; discriminate|intros c' y' Q; rewrite Ec in Q; injection Q as <- _; exact Hc|exact U|].
    exists ("-" ++ layout (str_nat n) p e)%string, (- n)%Z, (e - p + 1)%Z. rewrite <- (Ropp_involutive x) at 1. rewrite prec_neg by assumption. rewrite Z.abs_opp, Z.abs_eq by lia. rewrite Rabs_left by lra. repeat split; auto; try lia; try apply N.
    rewrite opp_IZR. replace (- IZR n * x) with (IZR n * - x) by ring. apply Rmult_lt_0_compat; [apply IZR_lt; lia|lra].
Qed.
Lemma prec_zero p : (1 <= p)%Z -> exists s, to_precision (Fin 0) p = Ok s /\ numeral s = Some (0, - (p - 1))%Z.
Proof.
  intros Hp. exists ("0." ++ zeros (Z.to_nat (p - 1)))%string. split.
  - unfold to_precision. rewrite nofZ_fin, !neqb_fin, Reqb_true by reflexivity. reflexivity.
  - destruct (zeros_ok (Z.to_nat (p - 1))) as (Az & Dz & Lz). unfold numeral. change (split_sign ("0." ++ zeros (Z.to_nat (p - 1)))) with (1%Z, ("0" ++ ("." ++ zeros (Z.to_nat (p - 1))))%string).
    cbv beta iota. rewrite read_app by (try exact I; reflexivity). cbn [String.length Nat.add Nat.eqb append]. change (Ascii.eqb "." ".") with true. cbn iota. rewrite read_end by assumption. change (dval "0" 0) with 0%Z. rewrite Dz, Lz. do 2 f_equal. lia.
Qed.
Lemma prec_special p : to_precision XNaN p = Ok "NaN"%string /\ to_precision PInf p = Err OverflowError /\ to_precision NInf p = Err OverflowError.
Proof. repeat split. Qed.
