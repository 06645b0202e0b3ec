(** C96: the catalogue of concave gratings and the layout computed from it (script_sketchconcavegratings.py:17-54). *)
From Coq Require Import Reals ZArith Lra Lia Psatz Ascii String List Bool.
From Verif Require Import PyErr Num XReal Gratings.
Import ListNotations.

(* ------------------------------------------------------------------ specification: tables and texts *)
(** a row of a table: its first field and the others *)
Definition row := (string * list string)%type.
Fixpoint joined (h : string) (l : list string) : string := match l with [] => h | f :: l' => (h ++ String (ascii_of_nat 9) (joined f l'))%string end.
Definition free (a : ascii) (s : string) : Prop := ~ In a (list_ascii_of_string s).
(** fields without tabs, line ends and the letter 202 *)
Definition tidy (s : string) : Prop := free (ascii_of_nat 9) s /\ free (ascii_of_nat 10) s /\ free (ascii_of_nat 202) s.
Definition tidy_row (r : row) : Prop := tidy (fst r) /\ forall f, In f (snd r) -> tidy f.
(** [specked s s']: s' is s with the letter 202 put in at some places *)
Inductive specked : string -> string -> Prop :=
| S_nil : specked "" ""
| S_keep a s s' : specked s s' -> specked (String a s) (String a s')
| S_speck s s' : specked s s' -> specked s (String (ascii_of_nat 202) s').
(** a line of the file that shows the row r *)
Definition shows (r : row) (line : string) : Prop := exists e, (e = ""%string \/ e = String (ascii_of_nat 10) "") /\ specked (joined (fst r) (snd r) ++ e)%string line.
Fixpoint firsts (l : list string) : list string := match l with [] => [] | a :: l' => a :: filter (fun b => negb (String.eqb a b)) (firsts l') end.
(** the last row with a given name; the last column with a given label *)
Definition last_row (rows : list row) (name : string) (fields : list string) : Prop := exists b a, rows = b ++ (name, fields) :: a /\ forall r, In r a -> fst r <> name.
Definition last_col (labels fields : list string) (lab f : string) : Prop :=
  exists j, nth_error fields j = Some f /\ nth_error labels j = Some lab /\ forall k f', (j < k)%nat -> nth_error fields k = Some f' -> nth_error labels k <> Some lab.
Definition space (a : ascii) : Prop := In (nat_of_ascii a) [9; 10; 11; 12; 13; 28; 29; 30; 31; 32; 133; 160]%nat.
Definition trimmed (a b : string) : Prop := exists l r, a = (l ++ b ++ r)%string /\ (forall c, In c (list_ascii_of_string l) \/ In c (list_ascii_of_string r) -> space c) /\
  forall u, (exists c t, list_ascii_of_string b = u ++ c :: t /\ (u = [] \/ t = []) /\ space c) -> False.
Definition before_x (f a : string) : Prop := free "x" a /\ (f = a \/ exists b, f = (a ++ String "x" b)%string).
(** how a field is read *)
Definition reads {T} (pyfloat : string -> option T) (f : string) (v : entry) : Prop :=
  match pyfloat f with
  | Some x => v = CNum x
  | None => exists a b, before_x f a /\ trimmed a b /\ v = match pyfloat b with Some x => CNum x | None => CStr f end
  end.

(* ------------------------------------------------------------------ strings *)
Lemma free_cons a b s : free a (String b s) <-> b <> a /\ free a s.
Proof. unfold free. cbn. tauto. Qed.
Lemma app_cons c s t : (String c s ++ t)%string = String c (s ++ t). Proof. reflexivity. Qed.
Lemma chars_app s t : list_ascii_of_string (s ++ t) = list_ascii_of_string s ++ list_ascii_of_string t.
Proof. induction s as [|a s IH]; cbn; [reflexivity|now rewrite IH]. Qed.
Lemma free_app a s t : free a (s ++ t) <-> free a s /\ free a t.
Proof. unfold free. rewrite chars_app, in_app_iff. tauto. Qed.
Lemma app_nil s : (s ++ "")%string = s. Proof. induction s as [|a s IH]; cbn; [reflexivity|now rewrite IH]. Qed.
Lemma split_free c s t : free c s -> split_on c (s ++ String c t) = (s, fst (split_on c t) :: snd (split_on c t)).
Proof.
  induction s as [|a s IH]; intros F; cbn.
  - rewrite Ascii.eqb_refl. destruct (split_on c t); reflexivity.
  - apply free_cons in F. destruct F as [Na F]. rewrite (IH F). destruct (Ascii.eqb_spec a c); [contradiction|reflexivity].
Qed.
Lemma split_none c s : free c s -> split_on c s = (s, []).
Proof. induction s as [|a s IH]; intros F; cbn; [reflexivity|]. apply free_cons in F. destruct F as [Na F]. rewrite (IH F). destruct (Ascii.eqb_spec a c); [contradiction|reflexivity]. Qed.
Lemma split_joined h l : free tab h -> (forall f, In f l -> free tab f) -> split_on tab (joined h l) = (h, l).
Proof.
  revert h. induction l as [|f l IH]; intros h H L; [apply split_none, H|]. cbn [joined]. change (ascii_of_nat 9) with tab. rewrite split_free by exact H. rewrite IH; [reflexivity| |]; intros; apply L; cbn; auto.
Qed.
Lemma joined_free a h l : a <> ascii_of_nat 9 -> free a h -> (forall f, In f l -> free a f) -> free a (joined h l).
Proof.
  intros Na. revert h. induction l as [|f l IH]; intros h H L; [exact H|]. cbn [joined]. apply free_app. split; [exact H|]. apply free_cons. split; [congruence|]. apply IH; [apply L; left; reflexivity|intros; apply L; right; assumption].
Qed.
Lemma remove_specked s s' : free e_circ s -> specked s s' -> remove_char e_circ s' = s.
Proof.
  intros F H. induction H as [|a s s' H IH|s s' H IH]; [reflexivity|..].
  - apply free_cons in F. destruct F as [Na F]. cbn [remove_char]. destruct (Ascii.eqb_spec a e_circ); [contradiction|]. now rewrite IH.
  - change (ascii_of_nat 202) with e_circ. cbn [remove_char]. rewrite Ascii.eqb_refl. auto.
Qed.
Lemma rstrip_free s : free newline s -> rstrip_if (Ascii.eqb newline) s = s.
Proof.
  induction s as [|a s IH]; intros F; [reflexivity|]. apply free_cons in F. destruct F as [Na F]. cbn [rstrip_if]. rewrite (IH F). destruct (Ascii.eqb_spec newline a); [congruence|]. destruct s; reflexivity.
Qed.
Lemma rstrip_end s : free newline s -> rstrip_if (Ascii.eqb newline) (s ++ String newline "") = s.
Proof.
  induction s as [|a s IH]; intros F; [reflexivity|]. apply free_cons in F. destruct F as [Na F]. rewrite app_cons. cbn [rstrip_if]. rewrite (IH F). destruct (Ascii.eqb_spec newline a); [congruence|]. destruct s; reflexivity.
Qed.
Lemma clean_shows r line : tidy_row r -> shows r line -> clean_line line = joined (fst r) (snd r).
Proof.
  intros [(F1 & F2 & F3) L] (e & He & Sp). unfold clean_line.
  assert (J2 : free newline (joined (fst r) (snd r))) by (apply joined_free; [discriminate|exact F2|intros f I; apply (L f I)]).
  assert (J3 : free e_circ (joined (fst r) (snd r))) by (apply joined_free; [discriminate|exact F3|intros f I; apply (L f I)]).
  rewrite (remove_specked (joined (fst r) (snd r) ++ e)); [|apply free_app; split; [exact J3|destruct He as [-> | ->]; unfold free; cbn; [tauto|intros [X|[]]; discriminate]]|exact Sp].
  destruct He as [-> | ->]; [rewrite app_nil; apply rstrip_free, J2|apply rstrip_end, J2].
Qed.
Lemma split_shows r line : tidy_row r -> shows r line -> split_on tab (clean_line line) = r.
Proof. intros T H. rewrite (clean_shows r line T H). destruct r as [h l], T as [(F & _) L]. cbn in *. apply split_joined; [exact F|intros f I; apply (L f I)]. Qed.

Lemma is_space_spec a : is_space a = true <-> space a.
Proof.
  unfold is_space, space. cbn [In]. rewrite !orb_true_iff, !andb_true_iff, !Nat.leb_le, !Nat.eqb_eq. generalize (nat_of_ascii a). intros n. lia.
Qed.
Lemma strip_trims a : trimmed a (rstrip_if is_space (lstrip_if is_space a)).
Proof.
  assert (L : forall s, exists l, s = (l ++ lstrip_if is_space s)%string /\ (forall c, In c (list_ascii_of_string l) -> space c) /\ forall c t, lstrip_if is_space s = String c t -> ~ space c).
  { induction s as [|x s (l & E & A & B)]; [exists ""%string; split; [reflexivity|split; [intros c []|discriminate]]|]. cbn [lstrip_if]. destruct (is_space x) eqn:S.
    - exists (String x l). split; [rewrite app_cons; now rewrite <- E|]. split; [|exact B]. intros c [<-|I]; [now apply is_space_spec|exact (A c I)].
    - exists ""%string. split; [reflexivity|]. split; [intros c []|]. intros c t E'. injection E' as <- <-. rewrite <- is_space_spec. congruence. }
  assert (Rr : forall s, exists r, s = (rstrip_if is_space s ++ r)%string /\ (forall c, In c (list_ascii_of_string r) -> space c) /\ forall u c, list_ascii_of_string (rstrip_if is_space s) = u ++ [c] -> ~ space c).
  { induction s as [|x s (r & E & A & B)]; [exists ""%string; split; [reflexivity|split; [intros c []|intros u c X; destruct u; discriminate]]|]. cbn [rstrip_if]. destruct (rstrip_if is_space s) as [|y t] eqn:Et.
    - cbn in E. subst r. destruct (is_space x) eqn:S.
      + exists (String x s). split; [reflexivity|]. split; [|intros u c X; destruct u; discriminate]. intros c [<-|I]; [now apply is_space_spec|exact (A c I)].
      + exists s. split; [reflexivity|]. split; [exact A|]. intros u c X. destruct u as [|? [|? ?]]; cbn in X; try discriminate. injection X as <-. rewrite <- is_space_spec. congruence.
    - exists r. split; [rewrite app_cons; now rewrite <- E|]. split; [exact A|]. intros u c X. destruct u as [|x' u]; cbn in X; [discriminate|]. injection X as _ X. apply (B u c). exact X. }
  destruct (L a) as (l & E & A & B). destruct (Rr (lstrip_if is_space a)) as (r & E' & A' & B'). exists l, r. split; [rewrite <- E'; exact E|]. split; [intros c [I|I]; auto|].
  intros u (c & t & X & [-> | ->] & Sc).
  - destruct (rstrip_if is_space (lstrip_if is_space a)) as [|x s] eqn:Es; [discriminate|]. cbn in X. injection X as -> _. rewrite app_cons in E'. exact (B c _ E' Sc).
  - exact (B' u c X Sc).
Qed.
Lemma split_before f : before_x f (fst (split_on "x"%char f)).
Proof.
  induction f as [|a f [F IH]]; [split; [intros []|left; reflexivity]|]. cbn. destruct (split_on "x"%char f) as [h l] eqn:E. cbn [fst] in *. destruct (Ascii.eqb_spec a "x") as [->|Na].
  - split; [intros []|]. right. exists f. reflexivity.
  - split; [apply free_cons; auto|]. destruct IH as [-> | (b & ->)]; [left; reflexivity|right; exists b; reflexivity].
Qed.
Lemma field_reads T (pf : string -> option T) f : reads pf f (field_value pf f).
Proof.
  unfold reads, field_value. destruct (pf f) as [x|]; [reflexivity|]. eexists _, _. split; [apply split_before|]. split; [apply strip_trims|]. reflexivity.
Qed.

(* ------------------------------------------------------------------ dictionaries *)
Section Dict.
Context {A : Type}.
Implicit Types d : list (string * A).
Lemma dget_dset d k v : dget (dset d k v) k = Some v.
Proof. induction d as [|[k' v'] d IH]; cbn; [now rewrite String.eqb_refl|]. destruct (String.eqb k' k) eqn:E; cbn; rewrite E; auto. Qed.
Lemma dset_dset d k v v' : dset (dset d k v) k v' = dset d k v'.
Proof. induction d as [|[k' w] d IH]; cbn; [now rewrite String.eqb_refl|]. destruct (String.eqb k' k) eqn:E; cbn; rewrite E; [reflexivity|now rewrite IH]. Qed.
Lemma dset_same d k v : dget d k = Some v -> dset d k v = d.
Proof. induction d as [|[k' w] d IH]; cbn; [discriminate|]. destruct (String.eqb k' k); intros E; [injection E as ->; reflexivity|now rewrite IH]. Qed.
Definition memk (k : string) (l : list string) : bool := existsb (String.eqb k) l.
Lemma memk_In k l : memk k l = true <-> In k l.
Proof. unfold memk. rewrite existsb_exists. split; [intros (x & I & E); apply String.eqb_eq in E; now subst|intros I; exists k; split; [exact I|apply String.eqb_refl]]. Qed.
Lemma dset_keys d k v : map fst (dset d k v) = if memk k (map fst d) then map fst d else map fst d ++ [k].
Proof.
  induction d as [|[k' w] d IH]; [reflexivity|]. cbn. rewrite (String.eqb_sym k k'). destruct (String.eqb k' k) eqn:E; [reflexivity|]. cbn. rewrite IH. unfold memk. destruct (existsb (String.eqb k) (map fst d)); reflexivity.
Qed.
Lemma dset_nodup d k v : NoDup (map fst d) -> NoDup (map fst (dset d k v)).
Proof.
  intros H. rewrite dset_keys. destruct (memk k (map fst d)) eqn:E; [exact H|]. assert (N : ~ In k (map fst d)) by (rewrite <- memk_In; congruence).
  clear E. induction H as [|a l Na H IH]; cbn; [constructor; [intros []|constructor]|]. constructor; [rewrite in_app_iff; intros [I|[E|[]]]; [auto|apply N; left; congruence]|]. apply IH. cbn in N; tauto.
Qed.
Lemma dset_In d k v k' v' : NoDup (map fst d) -> (In (k', v') (dset d k v) <-> (k' = k /\ v' = v) \/ (k' <> k /\ In (k', v') d)).
Proof.
  induction d as [|[a w] d IH]; intros H; cbn.
  - split; [intros [E|[]]; injection E as <- <-; auto|intros [[-> ->]|[_ []]]; auto].
  - inversion H as [|? ? Na Hd]; subst. specialize (IH Hd). destruct (String.eqb_spec a k) as [->|Nk]; cbn.
    + split.
      * intros [E|I]; [injection E as <- <-; auto|]. right. split; [intros ->; apply Na; exact (in_map fst _ _ I)|auto].
      * intros [[-> ->]|[Nk [E|I]]]; [auto|injection E as <- <-; contradiction|auto].
    + rewrite IH. split.
      * intros [E|[E|[E I]]]; [injection E as <- <-; right; auto|auto|auto].
      * intros [E|[E [X|I]]]; [auto|auto|auto].
Qed.
Lemma dget_In d k v : NoDup (map fst d) -> (dget d k = Some v <-> In (k, v) d).
Proof.
  induction d as [|[a w] d IH]; intros H; cbn; [split; [discriminate|intros []]|]. inversion H as [|? ? Na Hd]; subst. destruct (String.eqb_spec a k) as [->|Nk].
  - split; [intros E; injection E as ->; auto|]. intros [E|I]; [injection E as ->; reflexivity|]. destruct Na. exact (in_map fst _ _ I).
  - rewrite (IH Hd). split; [auto|]. intros [E|I]; [injection E as -> _; contradiction|exact I].
Qed.
End Dict.

(* ------------------------------------------------------------------ the table *)
Section Load.
Context {T : Type} (pf : string -> option T).
Local Notation fv_ := (field_value pf).
Fixpoint fill (labels fields : list string) (r : list (string * @entry T)) : list (string * entry) :=
  match labels, fields with lab :: labels', f :: fields' => fill labels' fields' (dset r lab (fv_ f)) | _, _ => r end.
Lemma load_fields_ok labels name fields : forall pre (data : catalogue) r, dget data name = Some r -> (length fields <= length labels)%nat ->
  load_fields pf (pre ++ labels) name (length pre) fields data = Ok (dset data name (fill labels fields r)).
Proof.
  revert labels. induction fields as [|f fields IH]; intros labels pre data r G L; cbn [load_fields].
  - destruct labels; cbn; now rewrite (dset_same _ _ _ G).
  - destruct labels as [|lab labels]; [cbn in L; lia|]. rewrite nth_error_app2, Nat.sub_diag by lia. cbn [nth_error]. rewrite G.
    replace (S (length pre)) with (length (pre ++ [lab])) by (rewrite app_length; cbn; lia). replace (pre ++ lab :: labels) with ((pre ++ [lab]) ++ labels) by (rewrite <- app_assoc; reflexivity).
    rewrite (IH labels (pre ++ [lab]) _ _ (dget_dset data name _)) by (cbn in L; lia). rewrite dset_dset. reflexivity.
Qed.
Lemma load_fields_long labels name fields : forall pre (data : catalogue) r, dget data name = Some r -> (length labels < length fields)%nat ->
  load_fields pf (pre ++ labels) name (length pre) fields data = Err IndexError.
Proof.
  revert labels. induction fields as [|f fields IH]; intros labels pre data r G L; cbn [load_fields]; [cbn in L; lia|].
  destruct labels as [|lab labels]; rewrite nth_error_app2, Nat.sub_diag by lia; cbn [nth_error]; [reflexivity|]. rewrite G.
  replace (S (length pre)) with (length (pre ++ [lab])) by (rewrite app_length; cbn; lia). replace (pre ++ lab :: labels) with ((pre ++ [lab]) ++ labels) by (rewrite <- app_assoc; reflexivity).
  apply (IH labels (pre ++ [lab]) _ _ (dget_dset data name _)). cbn in L; lia.
Qed.
Lemma fill_nodup labels : forall fields r, NoDup (map fst r) -> NoDup (map fst (fill labels fields r)).
Proof. induction labels as [|lab labels IH]; intros fields r H; [exact H|]. destruct fields as [|f fields]; [exact H|]. cbn. apply IH, dset_nodup, H. Qed.
Lemma fill_In labels : forall fields r lab v, NoDup (map fst r) -> (In (lab, v) (fill labels fields r) <->
  (exists f, last_col labels fields lab f /\ v = fv_ f) \/ ((forall j f, nth_error fields j = Some f -> nth_error labels j <> Some lab) /\ In (lab, v) r)).
Proof.
  induction labels as [|l0 labels IH]; intros fields r lab v H.
  - cbn. split; [intros I; right; split; [intros [|j] f _; discriminate|exact I]|]. intros [(f & (j & _ & E & _) & _)|[_ I]]; [destruct j; discriminate|exact I].
  - destruct fields as [|f0 fields].
    + cbn. split; [intros I; right; split; [intros [|j] f X; discriminate|exact I]|]. intros [(f & (j & E & _) & _)|[_ I]]; [destruct j; discriminate|exact I].
    + cbn [fill]. rewrite (IH fields _ lab v (dset_nodup r l0 _ H)), (dset_In r l0 _ lab v H).
      assert (Lc : forall f, last_col (l0 :: labels) (f0 :: fields) lab f <-> last_col labels fields lab f \/ (f = f0 /\ lab = l0 /\ forall j f', nth_error fields j = Some f' -> nth_error labels j <> Some lab)).
      { intros f. split.
        - intros (j & E1 & E2 & M). destruct j as [|j]; cbn in E1, E2.
          + injection E1 as <-. injection E2 as <-. right. split; [reflexivity|]. split; [reflexivity|]. intros j f' E. apply (M (S j) f'); [lia|exact E].
          + left. exists j. split; [exact E1|]. split; [exact E2|]. intros k f' L E. apply (M (S k) f'); [lia|exact E].
        - intros [(j & E1 & E2 & M)|(-> & -> & M)].
          + exists (S j). split; [exact E1|]. split; [exact E2|]. intros [|k] f' L E; [lia|]. apply (M k f'); [lia|exact E].
          + exists 0%nat. split; [reflexivity|]. split; [reflexivity|]. intros [|k] f' L E; [lia|]. exact (M k f' E). }
      split.
      * intros [(f & C & ->)|[Nn [[-> ->]|[Nl I]]]].
        -- left. exists f. split; [apply Lc; auto|reflexivity].
        -- left. exists f0. split; [apply Lc; right; auto|reflexivity].
        -- right. split; [|exact I]. intros [|j] f E; [cbn; congruence|exact (Nn j f E)].
      * intros [(f & C & ->)|[Nn I]].
        -- apply Lc in C. destruct C as [C|(-> & -> & M)]; [left; eauto|right; split; [exact M|auto]].
        -- right. split; [intros j f E; exact (Nn (S j) f E)|]. right. split; [intros ->; exact (Nn 0%nat f0 eq_refl eq_refl)|exact I].
Qed.
Definition put (labels : list string) (data : catalogue) (r : row) : catalogue := dset data (fst r) (fill labels (snd r) []).
Lemma load_row_ok l0 labels line (r : row) data : tidy_row r -> shows r line ->
  load_row pf (l0 :: labels) (clean_line line) data = if (length (snd r) <=? length labels)%nat then Ok (put labels data r) else Err IndexError.
Proof.
  intros Ti Sh. unfold load_row. rewrite (split_shows r line Ti Sh). destruct r as [name fields]. cbn [fst snd]. destruct (Nat.leb_spec (length fields) (length labels)) as [L|L].
  - pose proof (load_fields_ok labels name fields [l0] _ _ (dget_dset data name []) L) as E. cbn [app length] in E. rewrite E. unfold put. cbn [fst snd]. now rewrite dset_dset.
  - apply (load_fields_long labels name fields [l0] _ _ (dget_dset data name []) L).
Qed.
Lemma load_rows_ok l0 labels : forall (rows : list row) lines data, (forall r, In r rows -> tidy_row r) -> Forall2 shows rows lines ->
  load_rows pf (l0 :: labels) (map clean_line lines) data = if forallb (fun r => (length (snd r) <=? length labels)%nat) rows then Ok (fold_left (put labels) rows data) else Err IndexError.
Proof.
  intros rows lines data Ti Sh. revert data. induction Sh as [|r line rows lines Hr Hl IH]; intros data; [reflexivity|]. cbn [map load_rows forallb fold_left].
  rewrite (load_row_ok l0 labels line r data (Ti r (or_introl eq_refl)) Hr). destruct (length (snd r) <=? length labels)%nat; [|reflexivity]. cbn [bind andb]. apply IH. intros r' I. apply Ti. right; exact I.
Qed.
Lemma put_all_nodup labels rows : forall data, NoDup (map fst data) -> NoDup (map fst (fold_left (put labels) rows data)).
Proof. induction rows as [|r rows IH]; intros data H; [exact H|]. cbn. apply IH. unfold put. apply dset_nodup, H. Qed.
Lemma put_all_In labels rows : forall data name g, NoDup (map fst data) -> (In (name, g) (fold_left (put labels) rows data) <->
  (exists fields, last_row rows name fields /\ g = fill labels fields []) \/ ((forall r, In r rows -> fst r <> name) /\ In (name, g) data)).
Proof.
  induction rows as [|[n0 f0] rows IH]; intros data name g H.
  - cbn. split; [intros I; right; split; [intros r []|exact I]|]. intros [(f & (b & a & E & _) & _)|[_ I]]; [destruct b; discriminate|exact I].
  - cbn [fold_left]. unfold put at 2. cbn [fst snd]. rewrite (IH _ name g (dset_nodup data n0 _ H)), (dset_In data n0 _ name g H).
    assert (Lr : forall f, last_row ((n0, f0) :: rows) name f <-> last_row rows name f \/ (f = f0 /\ name = n0 /\ forall r, In r rows -> fst r <> name)).
    { intros f. split.
      - intros (b & a & E & M). destruct b as [|x b]; cbn in E.
        + injection E as -> -> ->. right. auto.
        + injection E as _ E. left. exists b, a. auto.
      - intros [(b & a & -> & M)|(-> & -> & M)]; [exists ((n0, f0) :: b), a; auto|exists [], rows; auto]. }
    split.
    + intros [(f & L & ->)|[Nn [[-> ->]|[Nl I]]]].
      * left. exists f. split; [apply Lr; auto|reflexivity].
      * left. exists f0. split; [apply Lr; right; auto|reflexivity].
      * right. split; [|exact I]. intros r [<-|Ir]; [cbn; congruence|auto].
    + intros [(f & L & ->)|[Nn I]].
      * apply Lr in L. destruct L as [L|(-> & -> & M)]; [left; eauto|right; split; [exact M|auto]].
      * right. split; [intros r Ir; apply Nn; right; exact Ir|]. right. split; [intros ->; exact (Nn (n0, f0) (or_introl eq_refl) eq_refl)|exact I].
Qed.
Lemma put_all_keys labels rows : forall data, map fst (fold_left (put labels) rows data) = map fst data ++ filter (fun x => negb (memk x (map fst data))) (firsts (map fst rows)).
Proof.
  induction rows as [|[n0 f0] rows IH]; intros data; cbn [fold_left map firsts filter fst]; [now rewrite app_nil_r|].
  rewrite IH. unfold put. cbn [fst snd]. rewrite dset_keys.
  assert (FF : forall (f g : string -> bool) l, filter f (filter g l) = filter (fun x => (g x && f x)%bool) l).
  { intros f g l. induction l as [|x l IHl]; [reflexivity|]. cbn. destruct (g x); cbn; [destruct (f x); now rewrite IHl|exact IHl]. }
  destruct (memk n0 (map fst data)) eqn:E; cbn [negb].
  - rewrite FF. f_equal. apply filter_ext. intros x. destruct (String.eqb_spec n0 x) as [<-|Nx]; [now rewrite E|reflexivity].
  - rewrite FF, <- app_assoc. cbn [app]. do 2 f_equal. apply filter_ext. intros x. unfold memk. rewrite existsb_app. cbn. rewrite orb_false_r, negb_orb, (String.eqb_sym x n0), andb_comm. reflexivity.
Qed.
End Load.

(** The file of a table: the catalogue has one entry for each name, in the order of first occurrence; the entry holds the last row of that name, and for each label the last column with
    that label.  A row longer than the header raises IndexError; nothing else is raised. *)
Theorem C96_load : forall T (pf : string -> option T) (l0 : string) (labels : list string) (rows : list row) (head : string) (lines : list string),
  tidy_row (l0, labels) -> (forall r, In r rows -> tidy_row r) -> shows (l0, labels) head -> Forall2 shows rows lines ->
  ((exists r, In r rows /\ (length labels < length (snd r))%nat) -> load pf (head :: lines) = Err IndexError) /\
  ((forall r, In r rows -> (length (snd r) <= length labels)%nat) -> exists data, load pf (head :: lines) = Ok data /\
     map fst data = firsts (map fst rows) /\ NoDup (map fst data) /\
     forall name g, In (name, g) data -> exists fields, last_row rows name fields /\ NoDup (map fst g) /\
       (forall lab v, In (lab, v) g -> exists f, last_col labels fields lab f /\ reads pf f v) /\
       (forall lab f, last_col labels fields lab f -> exists v, In (lab, v) g)).
Proof.
  intros T pf l0 labels rows head lines Th Tr Sh Sl. unfold load. cbn [map]. rewrite (split_shows _ _ Th Sh). rewrite (load_rows_ok pf l0 labels rows lines [] Tr Sl). split.
  - intros (r & I & L). destruct (forallb (fun r => (length (snd r) <=? length labels)%nat) rows) eqn:E; [|reflexivity]. rewrite forallb_forall in E. specialize (E r I). apply Nat.leb_le in E. lia.
  - intros L. assert (E : forallb (fun r => (length (snd r) <=? length labels)%nat) rows = true) by (apply forallb_forall; intros r I; apply Nat.leb_le, L, I). rewrite E.
    eexists. split; [reflexivity|]. pose proof (put_all_keys pf labels rows []) as K. cbn [map app] in K. split; [|split].
    + rewrite K. clear. induction (firsts (map fst rows)) as [|x l IH]; [reflexivity|]. cbn [filter memk existsb negb] in *. now rewrite IH.
    + apply put_all_nodup. constructor.
    + intros name g I. apply (put_all_In pf labels rows [] name g (NoDup_nil _)) in I. destruct I as [(fields & Lr & ->)|[_ []]]. exists fields. split; [exact Lr|].
      split; [apply fill_nodup; constructor|]. split.
      * intros lab v I. apply (fill_In pf labels fields [] lab v (NoDup_nil _)) in I. destruct I as [(f & C & ->)|[_ []]]. exists f. split; [exact C|apply field_reads].
      * intros lab f C. exists (field_value pf f). apply (fill_In pf labels fields [] lab _ (NoDup_nil _)). left. eauto.
Qed.
Print Assumptions C96_load.

(* ------------------------------------------------------------------ layout *)
Local Open Scope R_scope.
Definition holds (g : list (string * @entry xr)) (k : string) (x : R) : Prop := dget g k = Some (CNum (Fin x)).
Definition layout_keys : list string := ["r (mm)"; "alpha (deg)"; "r'1 (mm)"; "beta1 (deg)"; "r'2 (mm)"; "beta2 (deg)"]%string.
Definition new_keys : list string := ["xy_input"; "xy_output1"; "xy_output2"; "L_detector"]%string.
Definition deg (a : R) : R := a * PI / 180.
Lemma dget_other {A} (d : list (string * A)) k v k' : k <> k' -> dget (dset d k v) k' = dget d k'.
Proof.
  intros Nk. induction d as [|[a w] d IH]; cbn; [destruct (String.eqb_spec k k'); [contradiction|reflexivity]|].
  destruct (String.eqb_spec a k) as [->|Na]; cbn; [destruct (String.eqb_spec k k'); [contradiction|reflexivity]|]. now rewrite IH.
Qed.
Lemma place_ok g r a x y : holds g r x -> holds g a y -> place (Fin PI) g r a = Ok (Fin (x * cos (deg y)), Fin (x * sin (deg y))).
Proof.
  intros Hr Ha. unfold holds in *. assert (C : forall f, coordinate (Fin PI) f g r a = Ok (nmul (Fin x) (f (Fin (deg y))))).
  { intros f. unfold coordinate, lookup. rewrite Hr, Ha. cbn [bind as_num]. rewrite nofZ_fin, nmul_fin, ndiv_fin by lra. reflexivity. }
  unfold place. rewrite !C. reflexivity.
Qed.
(** The points are at the distances and angles of the table; the length of the detector is the third side of the triangle with sides r'1, r'2 and the angle between them; all other entries are kept. *)
Theorem C96_layout : forall g r a r1 b1 r2 b2, holds g "r (mm)" r -> holds g "alpha (deg)" a -> holds g "r'1 (mm)" r1 -> holds g "beta1 (deg)" b1 -> holds g "r'2 (mm)" r2 -> holds g "beta2 (deg)" b2 ->
  exists g' x y x1 y1 x2 y2, layout1 (Fin PI) g = Ok g' /\
  dget g' "xy_input" = Some (CPair (Fin x) (Fin y)) /\ dget g' "xy_output1" = Some (CPair (Fin x1) (Fin y1)) /\ dget g' "xy_output2" = Some (CPair (Fin x2) (Fin y2)) /\
  x * x + y * y = r * r /\ x * sin (deg a) = y * cos (deg a) /\ x * cos (deg a) + y * sin (deg a) = r /\
  x1 * cos (deg b1) + y1 * sin (deg b1) = r1 /\ x1 * sin (deg b1) = y1 * cos (deg b1) /\ x2 * cos (deg b2) + y2 * sin (deg b2) = r2 /\ x2 * sin (deg b2) = y2 * cos (deg b2) /\
  (exists L, holds g' "L_detector" L /\ 0 <= L /\ L * L = r1 * r1 + r2 * r2 - 2 * r1 * r2 * cos (deg (b2 - b1))) /\
  (forall k, ~ In k new_keys -> dget g' k = dget g k).
Proof.
  intros g r a r1 b1 r2 b2 H1 H2 H3 H4 H5 H6.
  assert (Ho : forall g k v k' x, holds g k' x -> k <> k' -> holds (dset g k v) k' x) by (intros g0 k v k' x H N; unfold holds; rewrite dget_other by exact N; exact H).
  unfold layout1. rewrite (place_ok g _ _ r a H1 H2). cbn [bind].
  rewrite (place_ok _ _ _ r1 b1) by (apply Ho; [assumption|discriminate]). cbn [bind].
  rewrite (place_ok _ _ _ r2 b2) by (apply Ho; [apply Ho; [assumption|discriminate]|discriminate]). cbn [bind].
  rewrite !nsub_fin, !nmul_fin, nadd_fin.
  set (x1 := r1 * cos (deg b1)). set (y1 := r1 * sin (deg b1)). set (x2 := r2 * cos (deg b2)). set (y2 := r2 * sin (deg b2)).
  assert (P : 0 <= (y2 - y1) * (y2 - y1) + (x2 - x1) * (x2 - x1)) by (apply Rplus_le_le_0_compat; apply Rle_0_sqr).
  assert (Sq : forall v, 0 <= v -> nsqrt (Fin v) = Fin (sqrt v)) by (intros v Hv; apply nsqrt_fin; exact Hv).
  rewrite Sq by exact P.
  pose proof (sin2_cos2 (deg a)) as Ta. pose proof (sin2_cos2 (deg b1)) as T1. pose proof (sin2_cos2 (deg b2)) as T2. unfold Rsqr in *.
  exists (dset (dset (dset (dset g "xy_input" (CPair (Fin (r * cos (deg a))) (Fin (r * sin (deg a))))) "xy_output1" (CPair (Fin x1) (Fin y1))) "xy_output2" (CPair (Fin x2) (Fin y2))) "L_detector"
     (CNum (Fin (sqrt ((y2 - y1) * (y2 - y1) + (x2 - x1) * (x2 - x1)))))), (r * cos (deg a)), (r * sin (deg a)), x1, y1, x2, y2.
  split; [reflexivity|]. split; [rewrite !dget_other by discriminate; apply dget_dset|]. split; [rewrite !dget_other by discriminate; apply dget_dset|]. split; [rewrite dget_other by discriminate; apply dget_dset|].
  split; [transitivity (r * r * (sin (deg a) * sin (deg a) + cos (deg a) * cos (deg a))); [ring|rewrite Ta; ring]|]. split; [ring|].
  split; [transitivity (r * (sin (deg a) * sin (deg a) + cos (deg a) * cos (deg a))); [ring|rewrite Ta; ring]|].
  split; [transitivity (r1 * (sin (deg b1) * sin (deg b1) + cos (deg b1) * cos (deg b1))); [unfold x1, y1; ring|rewrite T1; ring]|]. split; [unfold x1, y1; ring|].
  split; [transitivity (r2 * (sin (deg b2) * sin (deg b2) + cos (deg b2) * cos (deg b2))); [unfold x2, y2; ring|rewrite T2; ring]|]. split; [unfold x2, y2; ring|].
  split.
  - eexists. split; [apply dget_dset|]. split; [apply sqrt_pos|]. rewrite sqrt_def by exact P.
    replace (deg (b2 - b1)) with (deg b2 - deg b1) by (unfold deg; field). rewrite cos_minus. unfold x1, y1, x2, y2.
    transitivity (r1 * r1 * (sin (deg b1) * sin (deg b1) + cos (deg b1) * cos (deg b1)) + r2 * r2 * (sin (deg b2) * sin (deg b2) + cos (deg b2) * cos (deg b2)) - 2 * r1 * r2 * (cos (deg b2) * cos (deg b1) + sin (deg b2) * sin (deg b1)));
      [ring|rewrite T1, T2; ring].
  - intros k Nk. unfold new_keys in Nk. cbn [In] in Nk. rewrite !dget_other; [reflexivity|intros E; apply Nk; rewrite <- E; tauto..].
Qed.
Print Assumptions C96_layout.

(** For every number type: the layout of a grating succeeds exactly if the six entries are there and are numbers; a failure is a KeyError or a TypeError; the layout of the catalogue keeps the names. *)
Theorem C96_failures : forall T (N : Num T) (TT : Trig T) (pi : T) (g : list (string * entry)),
  ((exists g', layout1 pi g = Ok g') <-> forall k, In k layout_keys -> exists x, dget g k = Some (CNum x)) /\
  (forall e, layout1 pi g = Err e -> e = KeyError \/ e = TypeError) /\
  ((forall k, In k layout_keys -> dget g k <> None) -> layout1 pi g <> Err KeyError) /\
  (forall d d', layout pi d = Ok d' -> map fst d' = map fst d /\ Forall2 (fun x y => layout1 pi (snd x) = Ok (snd y)) d d').
Proof.
  intros T N TT pi g.
  assert (C : forall f (g : list (string * entry)) r a, (exists x y, dget g r = Some (CNum x) /\ dget g a = Some (CNum y) /\ exists z, coordinate pi f g r a = Ok z) \/
     ((forall x y, dget g r = Some (CNum x) -> dget g a = Some (CNum y) -> False) /\
      (coordinate pi f g r a = Err TypeError \/ ((dget g r = None \/ dget g a = None) /\ coordinate pi f g r a = Err KeyError)))).
  { intros f g0 r a. unfold coordinate, lookup. destruct (dget g0 r) as [[x|x|x x']|]; destruct (dget g0 a) as [[y|y|y y']|]; cbn [bind as_num];
    first [left; eexists _, _; split; [reflexivity|split; [reflexivity|eexists; reflexivity]] | right; split; [intros; discriminate|first [left; reflexivity|right; split; [auto|reflexivity]]]]. }
  assert (Pl : forall (g : list (string * entry)) r a, (exists x y, dget g r = Some (CNum x) /\ dget g a = Some (CNum y) /\ exists z w, place pi g r a = Ok (z, w)) \/
     ((forall x y, dget g r = Some (CNum x) -> dget g a = Some (CNum y) -> False) /\
      (place pi g r a = Err TypeError \/ ((dget g r = None \/ dget g a = None) /\ place pi g r a = Err KeyError)))).
  { intros g0 r a. unfold place. destruct (C ncos g0 r a) as [(x & y & Hx & Hy & z & Ez)|[Nn [E|[M E]]]].
    - destruct (C nsin g0 r a) as [(x' & y' & Hx' & Hy' & z' & Ez')|[Nn _]]; [|destruct (Nn x y Hx Hy)]. left. exists x, y. split; [exact Hx|]. split; [exact Hy|]. exists z, z'. rewrite Ez, Ez'. reflexivity.
    - right. split; [exact Nn|]. left. rewrite E. reflexivity.
    - right. split; [exact Nn|]. right. split; [exact M|]. rewrite E. reflexivity. }
  assert (M : (exists g', layout1 pi g = Ok g' /\ forall k, In k layout_keys -> exists x, dget g k = Some (CNum x)) \/
     (~ (forall k, In k layout_keys -> exists x, dget g k = Some (CNum x)) /\ (layout1 pi g = Err TypeError \/ ((exists k, In k layout_keys /\ dget g k = None) /\ layout1 pi g = Err KeyError)))).
  { assert (Bad : forall r a, In r layout_keys -> In a layout_keys -> (forall x y : T, dget g r = Some (CNum x) -> dget g a = Some (CNum y) -> False) -> ~ (forall k, In k layout_keys -> exists x, dget g k = Some (CNum x))).
    { intros r a Ir Ia Nn H. destruct (H r Ir) as [x Hx], (H a Ia) as [y Hy]. exact (Nn x y Hx Hy). }
    assert (MK : forall r a, In r layout_keys -> In a layout_keys -> dget g r = None \/ dget g a = None -> exists k, In k layout_keys /\ dget g k = None) by (intros r a Ir Ia [X|X]; eauto).
    unfold layout1. destruct (Pl g "r (mm)" "alpha (deg)")%string as [(x & y & Hx & Hy & z & w & E)|[Nn [E|[Mi E]]]]; rewrite E; cbn [bind].
    2: right; split; [eapply Bad; [| |exact Nn]; cbn; tauto|left; reflexivity].
    2: right; split; [eapply Bad; [| |exact Nn]; cbn; tauto|right; split; [eapply MK; [| |exact Mi]; cbn; tauto|reflexivity]].
    set (g1 := dset g "xy_input" (CPair z w)).
    assert (G1 : forall k, In k layout_keys -> dget g1 k = dget g k).
    { intros k I. apply dget_other. intros <-. cbn in I. repeat (destruct I as [I|I]; [discriminate|]). destruct I. }
    destruct (Pl g1 "r'1 (mm)" "beta1 (deg)")%string as [(x1 & y1 & Hx1 & Hy1 & z1 & w1 & E1)|[Nn [E1|[Mi E1]]]]; rewrite E1; cbn [bind]; rewrite !G1 in * by (cbn; tauto).
    2: right; split; [eapply Bad; [| |exact Nn]; cbn; tauto|left; reflexivity].
    2: right; split; [eapply Bad; [| |exact Nn]; cbn; tauto|right; split; [eapply MK; [| |exact Mi]; cbn; tauto|reflexivity]].
    set (g2 := dset g1 "xy_output1" (CPair z1 w1)).
    assert (G2 : forall k, In k layout_keys -> dget g2 k = dget g k).
    { intros k I. rewrite <- (G1 k I). apply dget_other. intros <-. cbn in I. repeat (destruct I as [I|I]; [discriminate|]). destruct I. }
    destruct (Pl g2 "r'2 (mm)" "beta2 (deg)")%string as [(x2 & y2 & Hx2 & Hy2 & z2 & w2 & E2)|[Nn [E2|[Mi E2]]]]; rewrite E2; cbn [bind]; rewrite !G2 in * by (cbn; tauto).
    2: right; split; [eapply Bad; [| |exact Nn]; cbn; tauto|left; reflexivity].
    2: right; split; [eapply Bad; [| |exact Nn]; cbn; tauto|right; split; [eapply MK; [| |exact Mi]; cbn; tauto|reflexivity]].
    left. eexists. split; [reflexivity|]. intros k I. cbn in I. repeat (destruct I as [<-|I]; [eauto|]). destruct I. }
  split; [|split; [|split]].
  - split.
    + intros [g' E]. destruct M as [(g'' & _ & H)|(_ & [E'|[_ E']])]; [exact H|congruence|congruence].
    + intros H. destruct M as [(g'' & E & _)|(Nn & _)]; [eauto|contradiction].
  - intros e E. destruct M as [(g'' & E' & _)|(_ & [E'|[_ E']])]; rewrite E' in E; [discriminate|injection E as <-; auto|injection E as <-; auto].
  - intros H E. destruct M as [(g'' & E' & _)|(_ & [E'|[(k & I & Nk) E']])]; [congruence|congruence|exact (H k I Nk)].
  - intros d. induction d as [|[n0 g0] d IH]; intros d' E; cbn in E; [injection E as <-; auto|].
    destruct (layout1 pi g0) as [g1|] eqn:E1; cbn in E; [|discriminate]. destruct (layout pi d) as [d1|] eqn:E2; cbn in E; [|discriminate]. injection E as <-. destruct (IH d1 eq_refl) as [K F].
    cbn. split; [now rewrite K|constructor; [exact E1|exact F]].
Qed.
Print Assumptions C96_failures.

(** a table with a repeated name, a field "44 x 50" and a repeated label *)
Example C96_hyp : let rows := [("a", ["1"; "44 x 50"; "2"]); ("b", ["3"]); ("a", ["5"; "6"])]%string : list row in let labels := ["r"; "s"; "r"]%string in
  (forall r, In r (("catalog"%string, labels) :: rows) -> tidy_row r) /\ (forall r, In r rows -> (length (snd r) <= length labels)%nat) /\
  Forall2 shows rows ["a	1	44 x 50	2"; "b	3"; "a	5	6"]%string /\ last_row rows "a" ["5"; "6"]%string /\ last_col labels ["1"; "44 x 50"; "2"]%string "r" "2" /\
  before_x "44 x 50" "44 " /\ trimmed "44 " "44".
Proof.
  intros rows labels. split; [|split; [|split; [|split; [|split; [|split]]]]].
  - assert (D : forall s, forallb (fun c => negb (Ascii.eqb (ascii_of_nat 9) c) && negb (Ascii.eqb (ascii_of_nat 10) c) && negb (Ascii.eqb (ascii_of_nat 202) c))%bool (list_ascii_of_string s) = true -> tidy s).
    { intros s H. rewrite forallb_forall in H. split; [|split]; intros I; specialize (H _ I); rewrite Ascii.eqb_refl, ?andb_false_r in H; cbn in H; rewrite ?andb_false_r in H; discriminate. }
    intros r I. cbn in I. repeat (destruct I as [<-|I]; [split; [apply D; reflexivity|intros f J; cbn in J; repeat (destruct J as [<-|J]; [apply D; reflexivity|]); destruct J]|]). destruct I.
  - intros r I. cbn in I. repeat (destruct I as [<-|I]; [cbn; lia|]). destruct I.
  - assert (R : forall s, specked s s) by (induction s as [|a s IH]; [apply S_nil|apply S_keep, IH]).
    repeat (apply Forall2_cons; [exists ""%string; split; [auto|apply R]|]). apply Forall2_nil.
  - exists [("a", ["1"; "44 x 50"; "2"]); ("b", ["3"])]%string, []. split; [reflexivity|intros r []].
  - exists 2%nat. split; [reflexivity|]. split; [reflexivity|]. intros [|[|[|k]]] f L E; try lia. destruct k; discriminate.
  - split; [intros I; cbn in I; repeat (destruct I as [I|I]; [discriminate|]); destruct I|]. right. exists " 50"%string. reflexivity.
  - exists ""%string, " "%string. split; [reflexivity|]. split; [intros c [[]|[<-|[]]]; unfold space; cbn; auto 15|].
    intros u (c & t & E & K & Sc). assert (c = "4"%char). { destruct u as [|a [|b u]]; cbn in E; [injection E as <-; reflexivity|injection E as _ <-; reflexivity|injection E as _ _ E; destruct u; discriminate]. }
    subst c. unfold space in Sc. cbn in Sc. repeat (destruct Sc as [Sc|Sc]; [discriminate|]). destruct Sc.
Qed.
(** a grating with the six entries: 100 mm at 30 degrees, 80 mm at 0 degrees and 60 mm at 90 degrees; the detector is 100 mm long *)
Example C96_hyp_layout : let g := [("r (mm)", CNum (Fin 100)); ("alpha (deg)", CNum (Fin 30)); ("r'1 (mm)", CNum (Fin 80)); ("beta1 (deg)", CNum (Fin 0)); ("r'2 (mm)", CNum (Fin 60)); ("beta2 (deg)", CNum (Fin 90))]%string in
  exists g', layout1 (Fin PI) g = Ok g' /\ holds g' "L_detector" 100.
Proof.
  intros g. destruct (C96_layout g 100 30 80 0 60 90) as (g' & x & y & x1 & y1 & x2 & y2 & E & _ & _ & _ & _ & _ & _ & _ & _ & _ & _ & (L & HL & P & Sq) & _); try reflexivity.
  exists g'. split; [exact E|]. replace 100 with L; [exact HL|]. replace (deg (90 - 0)) with (PI / 2) in Sq by (unfold deg; field). rewrite cos_PI2 in Sq.
  assert (X : (L - 100) * (L + 100) = 0) by lra. apply Rmult_integral in X. destruct X; lra.
Qed.
