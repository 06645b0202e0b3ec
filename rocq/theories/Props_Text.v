(** C78: the text layout of prism10widetextarray. *)
From Coq Require Import Reals ZArith Ascii String List Bool Arith Lia Lra.
From Verif Require Import PyErr Num Vec XReal Helpers.
Import ListNotations.
Local Open Scope string_scope.

(* ---- specification ---- *)
Fixpoint sp (n : nat) : string := match n with O => "" | S n => String " " (sp n) end.
Definition blanks (k : Z) : string := sp (Z.to_nat k).
Definition nl : string := String "010" "".
(** [rows] cuts a list into rows of ten; the last row has between one and ten elements *)
Definition rows_of_ten {A} (rows : list (list A)) : Prop :=
  exists full last, rows = (full ++ [last])%list /\ (forall row, In row full -> List.length row = 10) /\ 1 <= List.length last <= 10.
(** a value with its text, a negative one with one blank less in front *)
Definition cell {T} {N : Num T} (left : Z) (vw : T * string) : string := blanks (if nlt (fst vw) (nofZ 0) then left - 1 else left) ++ snd vw.
(** a line: the indent, the cells with the right pad between them, and the right pad again unless the line is full *)
Definition line {T} {N : Num T} (left right indent : Z) (row : list (T * string)) : string :=
  blanks indent ++ String.concat (blanks right) (map (cell left) row) ++ (if List.length row =? 10 then "" else blanks right)%nat.
(** str.split(): the words of a text, separated by blanks and newlines *)
Definition is_blank (c : ascii) : bool := Ascii.eqb c " " || Ascii.eqb c "010".
Fixpoint words_from (acc s : string) : list string :=
  match s with
  | "" => if String.eqb acc "" then [] else [acc]
  | String c s => if is_blank c then (if String.eqb acc "" then words_from "" s else acc :: words_from "" s) else words_from (acc ++ String c "") s
  end.
Definition words (s : string) : list string := words_from "" s.
Fixpoint no_blank (s : string) : bool := match s with "" => true | String c s => negb (is_blank c) && no_blank s end.

(* ---- strings ---- *)
Lemma app_assoc_s (a b c : string) : (a ++ b) ++ c = a ++ (b ++ c).
Proof. induction a; cbn; [reflexivity|]. rewrite IHa. reflexivity. Qed.
Lemma app_nil_s (a : string) : a ++ "" = a.
Proof. induction a; cbn; [reflexivity|]. rewrite IHa. reflexivity. Qed.
Lemma length_app_s (a b : string) : String.length (a ++ b) = String.length a + String.length b.
Proof. induction a; cbn; [reflexivity|]. rewrite IHa. reflexivity. Qed.
Lemma sp_length n : String.length (sp n) = n. Proof. induction n; cbn; congruence. Qed.
Lemma sp_snoc n : sp n ++ " " = " " ++ sp n.
Proof. induction n; cbn; [reflexivity|]. rewrite IHn. reflexivity. Qed.
Lemma pad_loop_app k s : pad_loop k s = s ++ sp k.
Proof.
  revert s. induction k; intros s; cbn [pad_loop sp]; [symmetry; apply app_nil_s|].
  rewrite IHk, app_assoc_s. reflexivity.
Qed.
Lemma pad_app k s : pad k s = s ++ blanks k. Proof. apply pad_loop_app. Qed.
Lemma newline_nl : newline = nl. Proof. reflexivity. Qed.
Lemma concat_cons s a l : l <> [] -> String.concat s (a :: l) = a ++ s ++ String.concat s l.
Proof. destruct l; [congruence|]. reflexivity. Qed.
Lemma concat_app s l1 l2 : l1 <> [] -> l2 <> [] -> String.concat s (l1 ++ l2)%list = String.concat s l1 ++ s ++ String.concat s l2.
Proof.
  intros H1 H2. induction l1 as [|a l1 IH]; [congruence|]. destruct l1 as [|b l1].
  - cbn [app]. rewrite concat_cons by assumption. reflexivity.
  - cbn [app] in *. rewrite (concat_cons s a) by congruence. rewrite IH by congruence. rewrite (concat_cons s a) by congruence. rewrite !app_assoc_s. reflexivity.
Qed.

(* ---- the loop ---- *)
Section Loop.
Context {T : Type} {N : Num T}.
Variables (fmt : T -> Res string) (left right indent : Z).
Let pre (idx : nat) : string := if (0 <? idx)%nat && (idx mod 10 =? 0)%nat then nl ++ blanks indent else "".
Let post (idx : nat) : string := if (idx mod 10 =? 9)%nat then "" else blanks right.
Fixpoint body (idx : nat) (vws : list (T * string)) : string :=
  match vws with [] => "" | vw :: vws => pre idx ++ cell left vw ++ post idx ++ body (S idx) vws end.
Lemma loop_body vws : forall idx s, (forall v w, In (v, w) vws -> fmt v = Ok w) ->
  p10_loop fmt left right indent idx (map fst vws) s = Ok (s ++ body idx vws).
Proof.
  induction vws as [|(v, w) vws IH]; intros idx s H; cbn [map p10_loop body fst].
  - rewrite app_nil_s. reflexivity.
  - rewrite (H v w) by (left; reflexivity). cbn [bind]. rewrite IH by (intros; apply H; right; assumption). f_equal.
    unfold cell, pre, post. cbn [fst snd]. rewrite newline_nl.
    rewrite !pad_app. destruct ((0 <? idx)%nat && (idx mod 10 =? 0)%nat), (nlt v (nofZ 0)), (idx mod 10 =? 9)%nat; cbn [negb]; rewrite ?app_assoc_s; reflexivity.
Qed.
Lemma loop_err vws v e rest : forall idx s, (forall v w, In (v, w) vws -> fmt v = Ok w) -> fmt v = Err e ->
  p10_loop fmt left right indent idx (map fst vws ++ v :: rest) s = Err e.
Proof.
  induction vws as [|(v', w') vws IH]; intros idx s H Hv; cbn [map app p10_loop fst].
  - rewrite Hv. reflexivity.
  - rewrite (H v' w') by (left; reflexivity). cbn [bind]. apply IH; [|assumption]. intros. apply H. right. assumption.
Qed.
(** the rest of a row, from its j-th cell on *)
Lemma body_row row : forall k j rest, (1 <= j)%nat -> (j + List.length row <= 10)%nat -> row <> [] ->
  body (10 * k + j) (row ++ rest) =
  String.concat (blanks right) (map (cell left) row) ++ (if j + List.length row =? 10 then "" else blanks right)%nat ++ body (10 * k + j + List.length row) rest.
Proof.
  induction row as [|vw row IH]; intros k j rest Hj Hl Hn; [congruence|]. cbn [app body List.length] in *.
  assert (M : ((10 * k + j) mod 10 = j)%nat) by (rewrite Nat.add_comm, Nat.mul_comm, Nat.mod_add by lia; apply Nat.mod_small; lia).
  assert (P : pre (10 * k + j) = "") by (unfold pre; rewrite M; destruct (Nat.eqb_spec j 0); [lia|]; rewrite andb_false_r; reflexivity).
  assert (Q : post (10 * k + j) = if (j =? 9)%nat then "" else blanks right) by (unfold post; rewrite M; reflexivity).
  rewrite P, Q. replace (S (10 * k + j)) with (10 * k + S j)%nat by lia. destruct row as [|vw' row].
  - cbn [app map String.concat List.length]. replace (10 * k + j + 1)%nat with (10 * k + S j)%nat by lia.
    replace (j + 1 =? 10)%nat with (j =? 9)%nat by (destruct (Nat.eqb_spec j 9), (Nat.eqb_spec (j + 1) 10); lia || reflexivity). reflexivity.
  - cbn [List.length] in *. destruct (Nat.eqb_spec j 9); [lia|]. rewrite IH by (cbn [List.length]; lia || congruence).
    cbn [map]. rewrite (concat_cons _ (cell left vw)) by congruence. cbn [List.length map].
    replace (S j + S (List.length row))%nat with (j + S (S (List.length row)))%nat by lia.
    replace (10 * k + S j + S (List.length row))%nat with (10 * k + j + S (S (List.length row)))%nat by lia.
    cbn [append]. rewrite ?app_assoc_s. reflexivity.
Qed.
Lemma body_line row k rest : (1 <= List.length row <= 10)%nat ->
  body (10 * k) (row ++ rest) = (if (k =? 0)%nat then "" else nl ++ blanks indent) ++ String.concat (blanks right) (map (cell left) row) ++
    (if List.length row =? 10 then "" else blanks right)%nat ++ body (10 * k + List.length row) rest.
Proof.
  intros H. destruct row as [|vw row]; [cbn in H; lia|]. cbn [app body].
  assert (M : ((10 * k) mod 10 = 0)%nat) by (rewrite Nat.mul_comm; apply Nat.mod_mul; lia).
  assert (P : pre (10 * k) = if (k =? 0)%nat then "" else nl ++ blanks indent).
  { unfold pre. rewrite M. destruct (Nat.eqb_spec k 0) as [->|]; [reflexivity|]. destruct (Nat.ltb_spec 0 (10 * k)); [reflexivity|lia]. }
  assert (Q : post (10 * k) = blanks right) by (unfold post; rewrite M; reflexivity). rewrite P, Q.
  replace (S (10 * k)) with (10 * k + 1)%nat by lia. destruct row as [|vw' row].
  - cbn [app map String.concat List.length]. reflexivity.
  - rewrite body_row by (cbn [List.length] in *; lia || congruence). cbn [map]. rewrite (concat_cons _ (cell left vw)) by congruence. cbn [map List.length].
    replace (1 + S (List.length row))%nat with (S (S (List.length row))) by lia.
    replace (10 * k + 1 + S (List.length row))%nat with (10 * k + S (S (List.length row)))%nat by lia. rewrite ?app_assoc_s. reflexivity.
Qed.
Lemma body_lines full last : (forall row, In row full -> List.length row = 10) -> (1 <= List.length last <= 10)%nat -> forall k,
  body (10 * k) (List.concat (full ++ [last])) = (if (k =? 0)%nat then "" else nl ++ blanks indent) ++
  (fun s => s) (String.concat (nl ++ blanks indent) (map (fun row => String.concat (blanks right) (map (cell left) row) ++ (if List.length row =? 10 then "" else blanks right)%nat) (full ++ [last]))).
Proof.
  intros Hf Hl. induction full as [|row full IH]; intros k.
  - cbn [app List.concat map String.concat]. rewrite body_line by assumption. cbn [body]. rewrite app_nil_s. reflexivity.
  - assert (L : List.length row = 10) by (apply Hf; left; reflexivity).
    cbn [app List.concat map]. rewrite body_line by lia. rewrite L. replace (10 * k + 10)%nat with (10 * S k)%nat by lia.
    rewrite IH by (intros; apply Hf; right; assumption). cbn [Nat.eqb].
    rewrite concat_cons by (rewrite map_app; destruct (map _ full); discriminate). cbn [append]. rewrite ?app_assoc_s. reflexivity.
Qed.
Lemma sep_concat (a b : string) l : l <> [] -> a ++ String.concat (b ++ a) l = String.concat b (map (fun s => a ++ s) l).
Proof.
  intros H. induction l as [|x l IH]; [congruence|]. destruct l as [|y l]; [reflexivity|].
  rewrite (concat_cons (b ++ a)) by congruence. cbn [map] in *. rewrite (concat_cons b) by congruence. rewrite <- IH by congruence. rewrite ?app_assoc_s. reflexivity.
Qed.
End Loop.

(** C78: the values are laid out in rows of ten, one line each, for every array that is not empty and every number type. *)
Theorem C78_layout : forall T (N : Num T) fmt left right indent rows, rows_of_ten rows ->
  (forall v w, In (v, w) (List.concat rows) -> fmt v = Ok w) ->
  prism10widetextarray fmt (map fst (List.concat rows)) left right indent = Ok (String.concat nl (map (line left right indent) rows)).
Proof.
  intros T N fmt left right indent rows (full & last & -> & Hf & Hl) H. unfold prism10widetextarray. rewrite loop_body by assumption. f_equal.
  change O with (10 * 0)%nat at 1. rewrite body_lines by assumption. cbn [Nat.eqb append]. rewrite pad_app. cbn [append].
  rewrite sep_concat by (rewrite map_app; destruct (map _ full); discriminate). rewrite map_map. reflexivity.
Qed.
Print Assumptions C78_layout.

(** every array that is not empty is cut into rows in exactly one way; the empty array yields the indent alone *)
Theorem C78_rows : forall A (l : list A), l <> [] -> exists rows, rows_of_ten rows /\ List.concat rows = l /\ forall rows', rows_of_ten rows' -> List.concat rows' = l -> rows' = rows.
Proof.
  intros A l. remember (List.length l) as n eqn:Hn. revert l Hn. induction n as [n IH] using (well_founded_induction lt_wf). intros l Hn Hl.
  destruct (le_lt_dec n 10) as [L|L].
  - exists [l]. split; [|split].
    + exists [], l. split; [reflexivity|]. split; [intros ? []|]. destruct l; [congruence|]. cbn in *. lia.
    + cbn. apply app_nil_r.
    + intros rows' (full & last & -> & Hf & Hlast) E. destruct full as [|row full]; [cbn in E; rewrite app_nil_r in E; subst; reflexivity|].
      exfalso. assert (List.length row = 10) by (apply Hf; left; reflexivity). cbn in E.
      apply (f_equal (@List.length A)) in E. rewrite app_length, List.concat_app, app_length in E. cbn in E. rewrite app_nil_r in E. lia.
  - assert (L1 : List.length (firstn 10 l) = 10) by (rewrite firstn_length; lia).
    assert (L2 : List.length (skipn 10 l) = n - 10) by (rewrite skipn_length; lia).
    destruct (IH (n - 10) ltac:(lia) (skipn 10 l)) as (rows & (full & last & -> & Hf & Hlast) & E & U); [lia|intros K; rewrite K in L2; cbn in L2; lia|].
    exists (firstn 10 l :: full ++ [last]). split; [|split].
    + exists (firstn 10 l :: full), last. split; [reflexivity|]. split; [|assumption]. intros row [<-|K]; auto.
    + cbn [List.concat]. rewrite E. apply firstn_skipn.
    + intros rows' (full' & last' & -> & Hf' & Hlast') E'. destruct full' as [|row full'].
      { exfalso. cbn in E'. rewrite app_nil_r in E'. subst. lia. }
      assert (LR : List.length row = 10) by (apply Hf'; left; reflexivity). cbn [app List.concat] in E'.
      assert (row = firstn 10 l) as -> by (rewrite <- E', firstn_app, LR; cbn [Nat.sub]; rewrite <- LR, firstn_all, app_nil_r; reflexivity).
      cbn [app]. f_equal. apply U.
      * exists full', last'. split; [reflexivity|]. split; [|assumption]. intros; apply Hf'; right; assumption.
      * apply (f_equal (skipn 10)) in E'. rewrite skipn_app, L1, (skipn_all2 (firstn 10 l)) in E' by lia. exact E'.
Qed.
Print Assumptions C78_rows.
Theorem C78_empty : forall T (N : Num T) fmt left right indent, prism10widetextarray fmt [] left right indent = Ok (blanks indent).
Proof. intros. unfold prism10widetextarray. cbn [p10_loop]. rewrite pad_app. reflexivity. Qed.
Print Assumptions C78_empty.
(** if the text of some value cannot be made, the first such error is raised *)
Theorem C78_error : forall T (N : Num T) fmt left right indent vws v e rest, (forall v w, In (v, w) vws -> fmt v = Ok w) -> fmt v = Err e ->
  prism10widetextarray fmt (map fst vws ++ v :: rest) left right indent = Err e.
Proof. intros. apply loop_err; assumption. Qed.
Print Assumptions C78_error.

(** C78: reading the text back.  If the texts of the values are not empty and contain no blanks, and there is at least one blank between neighbours, the
    words of the text are the texts of the values, in order. *)
Lemma words_acc w : forall acc t, no_blank w = true -> words_from acc (w ++ t) = words_from (acc ++ w) t.
Proof.
  induction w as [|c w IH]; intros acc t H; cbn [append no_blank words_from] in *.
  - rewrite app_nil_s. reflexivity.
  - apply andb_true_iff in H. destruct H as [H1 H2]. apply negb_true_iff in H1. rewrite H1, IH by assumption. rewrite app_assoc_s. reflexivity.
Qed.
Definition opens (t : string) : bool := match t with "" => true | String c _ => is_blank c end.
Lemma words_word w t : w <> "" -> no_blank w = true -> opens t = true -> words (w ++ t) = w :: words t.
Proof.
  intros Hw Hb Ho. unfold words. rewrite words_acc by assumption. cbn [append].
  assert (E : String.eqb w "" = false) by (destruct (String.eqb_spec w ""); congruence).
  destruct t as [|c t]; cbn [opens] in Ho; cbn [words_from]; rewrite ?Ho, E; reflexivity.
Qed.
Lemma words_sp n t : words (sp n ++ t) = words t.
Proof. induction n; [reflexivity|]. cbn. exact IHn. Qed.
Lemma words_nl t : words (nl ++ t) = words t. Proof. reflexivity. Qed.
Lemma opens_sp n t : (n <> 0)%nat \/ opens t = true -> opens (sp n ++ t) = true.
Proof. destruct n; cbn; intros [H|H]; congruence || assumption || reflexivity. Qed.

Theorem C78_words : forall T (N : Num T) fmt left right indent vws,
  (forall v w, In (v, w) vws -> fmt v = Ok w /\ w <> "" /\ no_blank w = true /\ (1 <= right \/ 2 <= left \/ (1 <= left /\ nlt v (nofZ 0) = false))%Z) ->
  exists s, prism10widetextarray fmt (map fst vws) left right indent = Ok s /\ words s = map snd vws.
Proof.
  intros T N fmt left right indent vws H. unfold prism10widetextarray. rewrite loop_body by (intros v w K; apply (H v w K)). eexists. split; [reflexivity|].
  rewrite pad_app. cbn [append]. unfold blanks at 1. rewrite words_sp.
  assert (G : forall idx, words (body left right indent idx vws) = map snd vws /\
     ((vws = [] \/ (1 <= idx)%nat /\ ((idx mod 10 = 0)%nat \/ (right <= 0)%Z)) -> opens (body left right indent idx vws) = true)).
  { induction vws as [|(v, w) vws IH]; intros idx; [split; [reflexivity|intros; reflexivity]|]. cbn [body map snd].
    destruct (H v w (or_introl eq_refl)) as (_ & Hw & Hb & Hs). specialize (IH (fun v w K => H v w (or_intror K)) (S idx)). destruct IH as [IH1 IH2]. split.
    - assert (P : forall t, words ((if (0 <? idx)%nat && (idx mod 10 =? 0)%nat then nl ++ blanks indent else "") ++ t) = words t).
      { intros t. destruct ((0 <? idx)%nat && (idx mod 10 =? 0)%nat); [|reflexivity]. rewrite app_assoc_s, words_nl. apply words_sp. }
      rewrite P. unfold cell. cbn [fst snd]. rewrite app_assoc_s. unfold blanks at 1. rewrite words_sp. rewrite words_word; try assumption.
      + f_equal. rewrite <- IH1. destruct (idx mod 10 =? 9)%nat; [reflexivity|]. apply words_sp.
      + destruct (Nat.eqb_spec (idx mod 10) 9) as [E9|E9].
        * cbn [append]. apply IH2. right. split; [lia|]. left. replace (S idx) with (idx + 1)%nat by lia. rewrite Nat.add_mod, E9 by lia. reflexivity.
        * unfold blanks. apply opens_sp. destruct (Z.to_nat right) eqn:R; [|left; discriminate]. right. apply IH2. right. split; [lia|]. right. lia.
    - intros [K|(K1 & K2)]; [discriminate|]. destruct (Nat.eqb_spec (idx mod 10) 0) as [E0|E0].
      + destruct (Nat.ltb_spec 0 idx); [|lia]. reflexivity.
      + rewrite andb_false_r. cbn [append]. unfold cell. cbn [fst snd]. rewrite app_assoc_s. unfold blanks at 1. apply opens_sp. left.
        destruct K2 as [K2|K2]; [congruence|]. destruct (nlt v (nofZ 0)); destruct Hs as [Hs|[Hs|[Hs Hs']]]; try congruence; lia. }
  apply (G 0%nat).
Qed.
Print Assumptions C78_words.

(** C78: alignment.  If the texts of the values that are not negative all have W characters and the others one more, the j-th value of every line ends in the same column. *)
Theorem C78_aligned : forall T (N : Num T) left right indent W before v w after, (1 <= left)%Z -> (0 <= right)%Z -> (0 <= indent)%Z ->
  (forall v' w', In (v', w') (before ++ (v, w) :: after) -> Z.of_nat (String.length w') = (if nlt v' (nofZ 0) then W + 1 else W)%Z) ->
  exists s t, line left right indent (before ++ (v, w) :: after) = s ++ w ++ t /\
    Z.of_nat (String.length (s ++ w)) = (indent + (left + W) + Z.of_nat (List.length before) * (left + W + right))%Z.
Proof.
  intros T N left right indent W before v w after Hl Hr Hi H.
  assert (C : forall v' w', In (v', w') (before ++ (v, w) :: after) -> Z.of_nat (String.length (cell left (v', w'))) = (left + W)%Z).
  { intros v' w' K. unfold cell, blanks. cbn [fst snd]. rewrite length_app_s, sp_length. specialize (H v' w' K). destruct (nlt v' (nofZ 0)); lia. }
  assert (G : forall tail, exists s t, String.concat (blanks right) (map (cell left) (before ++ (v, w) :: after)) ++ tail = s ++ w ++ t /\
     Z.of_nat (String.length (s ++ w)) = (left + W + Z.of_nat (List.length before) * (left + W + right))%Z).
  { intros tail. clear H. induction before as [|(v', w') before IH].
    - cbn [app map List.length] in *. specialize (C v w (or_introl eq_refl)). unfold cell in C. cbn [fst snd] in C.
      exists (blanks (if nlt v (nofZ 0) then left - 1 else left)).
      destruct after as [|a after].
      + exists tail. cbn [map String.concat]. unfold cell at 1. cbn [fst snd]. rewrite app_assoc_s. split; [reflexivity|lia].
      + exists (blanks right ++ String.concat (blanks right) (map (cell left) (a :: after)) ++ tail). rewrite concat_cons by discriminate. unfold cell at 1. cbn [fst snd]. rewrite !app_assoc_s. split; [reflexivity|lia].
    - destruct IH as (s & t & E & L); [intros; apply C; right; assumption|]. cbn [app map List.length] in *.
      exists (cell left (v', w') ++ blanks right ++ s), t. rewrite concat_cons by (destruct before; discriminate). rewrite !app_assoc_s, E. split; [reflexivity|].
      rewrite !length_app_s in *. rewrite !Nat2Z.inj_add, (C v' w' (or_introl eq_refl)) in *. unfold blanks. rewrite sp_length, Z2Nat.id by lia. lia. }
  destruct (G (if List.length (before ++ (v, w) :: after) =? 10 then "" else blanks right)%nat) as (s & t & E & L).
  exists (blanks indent ++ s), t. unfold line. rewrite E, app_assoc_s. split; [reflexivity|]. rewrite app_assoc_s, length_app_s, Nat2Z.inj_add, L. unfold blanks. rewrite sp_length, Z2Nat.id by lia. lia.
Qed.
Print Assumptions C78_aligned.

(** eleven values, some of them negative, in two lines *)
Section Hyp.
Let fmt (x : xr) : Res string := Ok (if nlt x (nofZ 0) then "-1.0" else "1.0").
Let vals : list (xr * string) := [(Fin 1, "1.0"); (Fin (-1), "-1.0"); (Fin 1, "1.0"); (Fin 1, "1.0"); (Fin 1, "1.0"); (Fin 1, "1.0"); (Fin 1, "1.0"); (Fin 1, "1.0"); (Fin 1, "1.0"); (Fin (-1), "-1.0")]%R.
Example C78_hyp : rows_of_ten [vals; [(Fin (-1), "-1.0")%R]] /\
  (forall v w, In (v, w) (List.concat [vals; [(Fin (-1), "-1.0")%R]]) -> fmt v = Ok w /\ w <> "" /\ no_blank w = true /\ Z.of_nat (String.length w) = (if nlt v (nofZ 0) then 3 + 1 else 3)%Z).
Proof.
  split.
  - exists [vals], [(Fin (-1), "-1.0")%R]. split; [reflexivity|]. split; [intros row [<-|[]]; reflexivity|cbn; lia].
  - assert (A : nlt (Fin 1) (nofZ 0) = false) by (rewrite (nofZ_fin 0), nlt_fin; destruct (Rltb_spec 1 0); [exfalso; Lra.lra|reflexivity]).
    assert (B : nlt (Fin (-1)) (nofZ 0) = true) by (rewrite (nofZ_fin 0), nlt_fin; destruct (Rltb_spec (-1) 0); [reflexivity|exfalso; Lra.lra]).
    intros v w K. cbn in K. unfold fmt. repeat (destruct K as [K|K]; [injection K as <- <-; rewrite ?A, ?B; repeat split; discriminate|]). destruct K.
Qed.
End Hyp.
