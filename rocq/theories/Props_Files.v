(** C79: deleting files by extension. *)
From Coq Require Import Ascii String List Bool Arith Lia.
From Verif Require Import PyErr Helpers.
Import ListNotations.
Local Open Scope string_scope.

(* ---- specification ---- *)
(** what is found at a path below a folder *)
Inductive kind : Type := KFile | KLink | KDir.
Fixpoint entry_of (n : string) (es : list (string * node)) : option node :=
  match es with [] => None | (m, x) :: es => if String.eqb m n then Some x else entry_of n es end.
Fixpoint kind_at (t : node) (p : list string) : option kind :=
  match p with
  | [] => Some (match t with File => KFile | DirLink => KLink | Dir _ => KDir end)
  | n :: p => match t with Dir es => match entry_of n es with Some x => kind_at x p | None => None end | _ => None end
  end.
(** a file system: no directory contains a name twice *)
Inductive tree : node -> Prop :=
| tree_file : tree File
| tree_link : tree DirLink
| tree_dir es : NoDup (map fst es) -> (forall n x, In (n, x) es -> tree x) -> tree (Dir es).
Definition ends_with (name ext : string) : Prop := exists stem, name = stem ++ ext.

(* ---- lemmas ---- *)
Lemma substring_all s : substring 0 (String.length s) s = s.
Proof. induction s; cbn; congruence. Qed.
Lemma substring_app a b : substring (String.length a) (String.length b) (a ++ b) = b.
Proof. induction a; cbn; [apply substring_all|assumption]. Qed.
Lemma substring_split k : forall s, (k <= String.length s)%nat -> exists a, s = a ++ substring k (String.length s - k) s /\ String.length a = k.
Proof.
  induction k; intros s H.
  - exists "". cbn [append]. rewrite Nat.sub_0_r, substring_all. auto.
  - destruct s as [|c s]; [cbn in H; lia|]. cbn in H. destruct (IHk s ltac:(lia)) as (a & E & L). exists (String c a). cbn. rewrite <- E. auto.
Qed.
Lemma endswith_iff s ext : endswith s ext = true <-> ends_with s ext.
Proof.
  unfold endswith. rewrite andb_true_iff, Nat.leb_le, String.eqb_eq. split.
  - intros [L E]. destruct (substring_split (String.length s - String.length ext) s ltac:(lia)) as (a & E' & _).
    replace (String.length s - (String.length s - String.length ext))%nat with (String.length ext) in E' by lia. rewrite E in E'. exists a. exact E'.
  - intros (a & ->). assert (L : String.length (a ++ ext) = (String.length a + String.length ext)%nat) by (clear; induction a; cbn; congruence).
    rewrite L. split; [lia|]. replace (String.length a + String.length ext - String.length ext)%nat with (String.length a) by lia. apply substring_app.
Qed.
Lemma entry_in n es : NoDup (map fst es) -> forall x, entry_of n es = Some x <-> In (n, x) es.
Proof.
  induction es as [|(m, y) es IH]; intros D x; cbn [entry_of map fst In] in *.
  - split; [discriminate|intros []].
  - inversion D as [|? ? D1 D2]; subst. destruct (String.eqb_spec m n) as [->|Hn].
    + split; [intros K; injection K as ->; auto|]. intros [K|K]; [congruence|]. exfalso. apply D1. apply (in_map fst) in K. exact K.
    + rewrite IH by assumption. split; [auto|]. intros [K|K]; [congruence|assumption].
Qed.
Lemma remove_entry_ok n es : NoDup (map fst es) -> forall x, entry_of n es = Some x -> (forall ds, x <> Dir ds) ->
  exists es', remove_entry n es = Ok es' /\ NoDup (map fst es') /\ (forall e, In e es' -> In e es) /\ (forall m, entry_of m es' = if String.eqb m n then None else entry_of m es).
Proof.
  induction es as [|(m, y) es IH]; intros D x Hx Hd; cbn [entry_of remove_entry map fst] in *; [discriminate|].
  inversion D as [|? ? D1 D2]; subst. destruct (String.eqb_spec m n) as [->|Hn].
  - injection Hx as ->. exists es. split; [destruct x; try reflexivity; exfalso; eapply Hd; reflexivity|]. split; [assumption|]. split; [right; assumption|].
    intros m. rewrite (String.eqb_sym n m). destruct (String.eqb_spec m n) as [->|]; [|reflexivity]. destruct (entry_of n es) eqn:K; [|reflexivity]. exfalso. apply D1.
    apply (entry_in n es D2) in K. apply (in_map fst) in K. exact K.
  - destruct (IH D2 x Hx Hd) as (es' & E & D' & I & M). rewrite E. cbn [bind]. exists ((m, y) :: es'). split; [reflexivity|]. split.
    + cbn [map fst]. constructor; [|assumption]. intros K. apply D1. apply in_map_iff in K. destruct K as ((m', y') & <- & K). apply I in K. apply (in_map fst) in K. exact K.
    + split; [intros e [<-|K]; [left; reflexivity|right; apply I; assumption]|]. intros m'. cbn [entry_of]. rewrite M.
      destruct (String.eqb_spec m m') as [->|]; [|reflexivity]. destruct (String.eqb_spec m' n); [congruence|reflexivity].
Qed.
Definition path_eq (p q : list string) : {p = q} + {p <> q} := list_eq_dec string_dec p q.
Lemma kind_dir_cons es n p : kind_at (Dir es) (n :: p) = match entry_of n es with Some x => kind_at x p | None => None end.
Proof. reflexivity. Qed.
(** removing a file or link *)
Lemma os_remove_ok dirs : forall n t, tree t -> kind_at t (dirs ++ [n]) = Some KFile \/ kind_at t (dirs ++ [n]) = Some KLink ->
  exists t', os_remove dirs n t = Ok t' /\ tree t' /\ forall p, kind_at t' p = if path_eq p (dirs ++ [n]) then None else kind_at t p.
Proof.
  induction dirs as [|d dirs IH]; intros n t Ht Hk; destruct Ht as [| |es D S]; try (cbn in Hk; destruct Hk; discriminate).
  - cbn [app os_remove] in *. rewrite kind_dir_cons in Hk. destruct (entry_of n es) as [x|] eqn:E; [|destruct Hk; discriminate].
    destruct (remove_entry_ok n es D x E) as (es' & R & D' & I & M). { intros ds ->. cbn in Hk. destruct Hk; discriminate. }
    rewrite R. cbn [bind]. exists (Dir es'). split; [reflexivity|]. split; [constructor; [assumption|]; intros m y K; apply (S m), I, K|].
    intros [|m p]; [destruct (path_eq [] [n]); [discriminate|reflexivity]|]. rewrite !kind_dir_cons, M.
    destruct (String.eqb_spec m n) as [->|Hm].
    + destruct (path_eq (n :: p) [n]) as [_|K]; [reflexivity|]. rewrite E. destruct p as [|a p]; [congruence|]. destruct x as [| |ds]; try reflexivity. cbn in Hk. destruct Hk; discriminate.
    + destruct (path_eq (m :: p) [n]) as [K|_]; [congruence|reflexivity].
  - cbn [app os_remove] in *. rewrite kind_dir_cons in Hk. destruct (entry_of d es) as [x|] eqn:E; [|destruct Hk; discriminate].
    assert (Tx : tree x) by (apply (S d); apply (entry_in d es D); assumption).
    destruct (IH n x Tx Hk) as (x' & R & Tx' & M). clear IH Hk.
    assert (G : exists es', (fix go (es : list (string * node)) : Res (list (string * node)) :=
             match es with
             | [] => Err OSError
             | (n0, x) :: es => if String.eqb n0 d then do x' <- os_remove dirs n x; Ok ((n0, x') :: es) else do es' <- go es; Ok ((n0, x) :: es')
             end) es = Ok es' /\ map fst es' = map fst es /\ (forall m y, In (m, y) es' -> y = x' \/ In (m, y) es) /\
             (forall m, entry_of m es' = if String.eqb m d then Some x' else entry_of m es)).
    { clear D S Tx M. induction es as [|(m, y) es IHe]; [discriminate|]. cbn [entry_of] in E. destruct (String.eqb_spec m d) as [->|Hm].
      - injection E as ->. rewrite R. cbn [bind]. exists ((d, x') :: es). split; [reflexivity|]. split; [reflexivity|]. split.
        + intros m y [K|K]; [left; congruence|right; right; assumption].
        + intros m. cbn [entry_of]. rewrite (String.eqb_sym d m). destruct (String.eqb m d); reflexivity.
      - destruct (IHe E) as (es' & E' & F & I & M). rewrite E'. cbn [bind]. exists ((m, y) :: es'). split; [reflexivity|]. split; [cbn [map]; congruence|]. split.
        + intros m' y' [K|K]; [right; left; assumption|]. destruct (I _ _ K); [left; assumption|right; right; assumption].
        + intros m'. cbn [entry_of]. rewrite M. destruct (String.eqb_spec m m') as [->|]; [|reflexivity]. destruct (String.eqb_spec m' d); [congruence|reflexivity]. }
    destruct G as (es' & G & F & I & Me). rewrite G. cbn [bind]. exists (Dir es'). split; [reflexivity|]. split.
    { constructor; [rewrite F; assumption|]. intros m y K. destruct (I _ _ K) as [->|K']; [assumption|apply (S m), K']. }
    intros [|m p]; [destruct (path_eq [] (d :: dirs ++ [n])); [discriminate|reflexivity]|]. rewrite !kind_dir_cons, Me.
    destruct (String.eqb_spec m d) as [->|Hm].
    + rewrite E, M. destruct (path_eq p (dirs ++ [n])) as [K|K], (path_eq (d :: p) (d :: dirs ++ [n])) as [K'|K']; try reflexivity; exfalso; congruence.
    + destruct (path_eq (m :: p) (d :: dirs ++ [n])) as [K|_]; [congruence|reflexivity].
Qed.

Definition path (df : list string * string) : list string := (fst df ++ [snd df])%list.
Lemma path_inj a b : path a = path b -> a = b.
Proof. destruct a, b. unfold path. cbn. intros H. apply app_inj_tail in H. destruct H; congruence. Qed.
Definition selected (ext : string) (todo : list (list string * string)) : list (list string * string) := filter (fun df => endswith (snd df) ext) todo.
Lemma remove_loop_ok ext todo : forall t, tree t -> NoDup todo ->
  (forall df, In df todo -> endswith (snd df) ext = true -> kind_at t (path df) = Some KFile \/ kind_at t (path df) = Some KLink) ->
  forall rest, exists t', tree t' /\ (forall p, kind_at t' p = if in_dec path_eq p (map path (selected ext todo)) then None else kind_at t p) /\
    remove_loop ext (todo ++ rest) t = (let '(out, t'', r) := remove_loop ext rest t' in ((map path (selected ext todo) ++ out)%list, t'', r)).
Proof.
  induction todo as [|(d, f) todo IH]; intros t Ht ND H rest.
  - exists t. split; [assumption|]. split; [reflexivity|]. cbn [app selected filter map]. destruct (remove_loop ext rest t) as ((out & t'') & r). reflexivity.
  - inversion ND as [|? ? N1 N2]; subst. cbn [app remove_loop]. unfold remove_if. unfold selected. cbn [filter snd]. destruct (endswith f ext) eqn:Ef.
    + destruct (os_remove_ok d f t Ht (H (d, f) (or_introl eq_refl) Ef)) as (t1 & R & T1 & M). rewrite R.
      destruct (IH t1 T1 N2) with (rest := rest) as (t' & T' & M' & E).
      { intros df K E. rewrite M. destruct (path_eq (path df) (d ++ [f])) as [K'|_]; [|apply H; [right; assumption|assumption]]. exfalso. apply N1. apply (path_inj (d, f) df) in K' || (symmetry in K'; apply (path_inj (d, f) df) in K'). subst. assumption. }
      exists t'. split; [assumption|]. split.
      * intros p. rewrite M', M. cbn [map]. fold (selected ext todo). change (path (d, f)) with (d ++ [f])%list. destruct (in_dec path_eq p (map path (selected ext todo))) as [I|I], (in_dec path_eq p ((d ++ [f])%list :: map path (selected ext todo))) as [J|J]; try reflexivity.
        -- exfalso. apply J. right. assumption.
        -- destruct (path_eq p (d ++ [f])) as [_|K]; [reflexivity|]. exfalso. destruct J as [J|J]; congruence.
        -- destruct (path_eq p (d ++ [f])) as [K|_]; [|reflexivity]. exfalso. apply J. left. congruence.
      * rewrite E. destruct (remove_loop ext rest t') as ((out & t'') & r). reflexivity.
    + destruct (IH t Ht N2) with (rest := rest) as (t' & T' & M' & E); [intros; apply H; [right; assumption|assumption]|].
      exists t'. split; [assumption|]. split; [assumption|]. rewrite E. destruct (remove_loop ext rest t') as ((out & t'') & r). reflexivity.
Qed.

(* ---- what os.walk finds ---- *)
Definition todo_of (root : list string) (t : node) : list (list string * string) := flat_map (fun rf => map (fun file => (fst rf, file)) (snd rf)) (os_walk root t).
Definition files (es : list (string * node)) : list string := map fst (filter (fun e => match snd e with File => true | _ => false end) es).
Lemma todo_dir root es : todo_of root (Dir es) = (map (fun f => (root, f)) (files es) ++ flat_map (fun nx => todo_of (root ++ [fst nx]) (snd nx)) es)%list.
Proof.
  unfold todo_of. cbn [os_walk flat_map fst snd]. f_equal. induction es as [|(n, x) es IH]; [reflexivity|]. cbn [flat_map fst snd]. rewrite flat_map_app, IH. reflexivity.
Qed.
Lemma in_files f es : In f (files es) <-> In (f, File) es.
Proof.
  unfold files. rewrite in_map_iff. split.
  - intros ((n, x) & <- & K). apply filter_In in K. cbn in *. destruct K as [K K']. destruct x; try discriminate. exact K.
  - intros K. exists (f, File). split; [reflexivity|]. apply filter_In. auto.
Qed.
Lemma todo_in t : tree t -> forall root df, In df (todo_of root t) <-> exists q, fst df = (root ++ q)%list /\ kind_at t (q ++ [snd df]) = Some KFile.
Proof.
  induction 1 as [| |es D _ IH]; intros root (d, f); cbn [fst snd].
  - split; [intros []|]. intros (q & _ & K). destruct q; discriminate.
  - split; [intros []|]. intros (q & _ & K). destruct q; discriminate.
  - rewrite todo_dir, in_app_iff, in_map_iff, in_flat_map. split.
    + intros [(f' & E & K)|((n, x) & K1 & K2)].
      * injection E as <- <-. exists []. rewrite app_nil_r. split; [reflexivity|]. cbn [app]. rewrite kind_dir_cons. apply in_files in K. apply (entry_in f' es D) in K. rewrite K. reflexivity.
      * cbn [fst snd] in K2. apply (IH n x K1) in K2. destruct K2 as (q & E & K). cbn [fst snd] in *. exists (n :: q). rewrite E, <- app_assoc. split; [reflexivity|]. cbn [app].
        rewrite kind_dir_cons. apply (entry_in n es D) in K1. rewrite K1. exact K.
    + intros (q & E & K). destruct q as [|n q].
      * left. rewrite app_nil_r in E. subst d. exists f. split; [reflexivity|]. cbn [app] in K. rewrite kind_dir_cons in K. destruct (entry_of f es) as [x|] eqn:X; [|discriminate].
        apply in_files. apply (entry_in f es D). destruct x; try discriminate. exact X.
      * right. cbn [app] in K. rewrite kind_dir_cons in K. destruct (entry_of n es) as [x|] eqn:X; [|discriminate]. apply (entry_in n es D) in X. exists (n, x). split; [exact X|]. cbn [fst snd].
        apply (IH n x X). exists q. cbn [fst snd]. rewrite E, <- app_assoc. auto.
Qed.
Lemma NoDup_app {A} (l1 l2 : list A) : NoDup l1 -> NoDup l2 -> (forall x, In x l1 -> ~ In x l2) -> NoDup (l1 ++ l2).
Proof.
  intros N1 N2 H. induction N1 as [|a l1 Ha N1 IH]; [assumption|]. cbn. constructor.
  - rewrite in_app_iff. intros [K|K]; [contradiction|]. apply (H a); [left; reflexivity|assumption].
  - apply IH. intros x K. apply H. right. assumption.
Qed.
Lemma siblings_nodup root es : NoDup (map fst es) -> (forall n x, In (n, x) es -> tree x) -> (forall n x, In (n, x) es -> forall root, NoDup (todo_of root x)) ->
  NoDup (flat_map (fun nx => todo_of (root ++ [fst nx]) (snd nx)) es).
Proof.
  induction es as [|(n, x) es IHe]; intros D S IH; [constructor|]. cbn [map fst] in D. apply NoDup_cons_iff in D. destruct D as [D1 D2]. cbn [flat_map fst snd]. apply NoDup_app.
  - apply (IH n x). left. reflexivity.
  - apply IHe; [assumption| |]; intros; [eapply S|eapply IH]; right; eassumption.
  - intros df K1 K2. apply (todo_in x (S n x (or_introl eq_refl))) in K1. destruct K1 as (q1 & E1 & _). apply in_flat_map in K2. destruct K2 as ((m, y) & K2 & K3). cbn [fst snd] in K3.
    apply (todo_in y (S m y (or_intror K2))) in K3. destruct K3 as (q2 & E2 & _). rewrite E1, <- !app_assoc in E2. apply app_inv_head in E2. cbn in E2. injection E2 as E2 _. subst m.
    apply D1. apply (in_map fst) in K2. exact K2.
Qed.
Lemma todo_nodup t : tree t -> forall root, NoDup (todo_of root t).
Proof.
  induction 1 as [| |es D S IH]; intros root; try constructor. rewrite todo_dir. apply NoDup_app.
  - assert (F : NoDup (files es)).
    { unfold files. clear S IH. induction es as [|(n, x) es IHe]; [constructor|]. cbn [map fst] in D. apply NoDup_cons_iff in D. destruct D as [D1 D2]. cbn [filter snd map]. destruct x; cbn [map fst]; auto.
      constructor; [|auto]. intros K. apply D1. cbn [fst]. apply in_map_iff in K. destruct K as ((m, y) & E & K). apply filter_In in K. destruct K as [K _]. cbn in E. subst. apply (in_map fst) in K. exact K. }
    induction F; cbn; constructor; auto. intros K. apply in_map_iff in K. destruct K as (f & E & K). congruence.
  - apply siblings_nodup; assumption.
  - intros df K1 K2. apply in_map_iff in K1. destruct K1 as (f & <- & _). apply in_flat_map in K2. destruct K2 as ((m, y) & K2 & K3). cbn [fst snd] in K3.
    apply (todo_in y (S m y K2)) in K3. destruct K3 as (q2 & E2 & _). cbn [fst] in E2. rewrite <- app_assoc in E2. rewrite <- (app_nil_r root) in E2 at 1. apply app_inv_head in E2. discriminate.
Qed.

(* ---- theorems ---- *)
(** C79: with deleteInSubDirectories exactly the files whose names end with the extension are removed, at any depth; directories, links and other files stay,
    and the removed paths are printed, each once. *)
Theorem C79_recursive : forall t ext, tree t -> exists out t', delete_files_with_extension (Some t) ext true = (out, Some t', Ok tt) /\ tree t' /\
  (forall p name, ends_with name ext -> kind_at t (p ++ [name]) = Some KFile -> kind_at t' (p ++ [name]) = None) /\
  (forall p, (forall q name, p = (q ++ [name])%list -> kind_at t p = Some KFile -> ~ ends_with name ext) -> kind_at t' p = kind_at t p) /\
  NoDup out /\ (forall p, In p out <-> kind_at t p <> None /\ kind_at t' p = None).
Proof.
  intros t ext Ht. unfold delete_files_with_extension. fold (todo_of [] t).
  destruct (remove_loop_ok ext (todo_of [] t) t Ht (todo_nodup t Ht [])) with (rest := @nil (list string * string)) as (t' & T' & M & E).
  { intros df K _. apply (todo_in t Ht) in K. destruct K as (q & E & K). left. unfold path. rewrite E. exact K. }
  rewrite app_nil_r in E. cbn [remove_loop] in E. rewrite app_nil_r in E. rewrite E.
  assert (In1 : forall p, In p (map path (selected ext (todo_of [] t))) <-> exists q name, p = (q ++ [name])%list /\ kind_at t p = Some KFile /\ ends_with name ext).
  { intros p. rewrite in_map_iff. split.
    - intros ((d, f) & <- & K). apply filter_In in K. cbn [snd] in K. destruct K as [K1 K2]. apply (todo_in t Ht) in K1. cbn [fst snd app] in K1. destruct K1 as (q & -> & K).
      exists q, f. split; [reflexivity|]. split; [exact K|]. apply endswith_iff. exact K2.
    - intros (q & name & -> & K & W). exists (q, name). split; [reflexivity|]. apply filter_In. split; [|apply endswith_iff; exact W]. apply (todo_in t Ht). exists q. auto. }
  eexists. exists t'. split; [reflexivity|]. split; [assumption|]. split; [|split; [|split]].
  - intros p name W K. rewrite M. destruct (in_dec path_eq (p ++ [name])%list (map path (selected ext (todo_of [] t)))) as [_|I]; [reflexivity|]. exfalso. apply I. apply In1. eauto.
  - intros p K. rewrite M. destruct (in_dec path_eq p (map path (selected ext (todo_of [] t)))) as [I|_]; [|reflexivity]. exfalso. apply In1 in I. destruct I as (q & name & I1 & I2 & I3). apply (K q name I1 I2 I3).
  - assert (F : NoDup (selected ext (todo_of [] t))) by (apply NoDup_filter, todo_nodup; assumption). clear - F. induction F; cbn; constructor; auto.
    intros K. apply in_map_iff in K. destruct K as (y & K1 & K2). apply path_inj in K1. congruence.
  - intros p. rewrite M. destruct (in_dec path_eq p (map path (selected ext (todo_of [] t)))) as [I|I].
    + split; [|intros _; exact I]. intros _. split; [|reflexivity]. apply In1 in I. destruct I as (q & name & _ & I & _). congruence.
    + split; [intros K; contradiction|]. intros [K1 K2]. congruence.
Qed.
Print Assumptions C79_recursive.
Lemma top_nodup (es : list (string * node)) : NoDup (map fst es) -> NoDup (map (fun e => (@nil string, fst e)) es).
Proof.
  induction es as [|(n, x) es IH]; intros D; cbn [map fst] in *; [constructor|]. apply NoDup_cons_iff in D. destruct D as [D1 D2]. constructor; [|auto].
  intros K. apply in_map_iff in K. destruct K as ((m, y) & E & K). cbn [fst] in E. injection E as ->. apply D1. apply (in_map fst) in K. exact K.
Qed.
Lemma selected_top ext (es : list (string * node)) p : In p (map path (selected ext (map (fun e => (@nil string, fst e)) es))) <-> exists name x, p = [name] /\ In (name, x) es /\ ends_with name ext.
Proof.
  rewrite in_map_iff. split.
  - intros ((d, f) & <- & K). apply filter_In in K. cbn [snd] in K. destruct K as [K W]. apply in_map_iff in K. destruct K as ((m, y) & E & K). cbn [fst] in E. injection E as <- <-.
    exists m, y. split; [reflexivity|]. split; [exact K|]. apply endswith_iff. exact W.
  - intros (name & x & -> & K & W). exists ([], name). split; [reflexivity|]. apply filter_In. split; [|apply endswith_iff; exact W]. apply in_map_iff. exists (name, x). auto.
Qed.
(** C79: without it only the entries of the folder itself are looked at.  If no directory among them has a matching name, exactly the matching files and links
    are removed; nothing below the subdirectories changes. *)
Theorem C79_flat : forall es ext, tree (Dir es) -> (forall n ds, In (n, Dir ds) es -> ~ ends_with n ext) ->
  exists out t', delete_files_with_extension (Some (Dir es)) ext false = (out, Some t', Ok tt) /\ tree t' /\
    (forall name, ends_with name ext -> kind_at t' [name] = None) /\
    (forall p, (forall name, p = [name] -> ~ ends_with name ext) -> kind_at t' p = kind_at (Dir es) p) /\
    (forall p, In p out <-> kind_at (Dir es) p <> None /\ kind_at t' p = None).
Proof.
  intros es ext Ht Hd. inversion Ht as [| |? D S]; subst. unfold delete_files_with_extension.
  destruct (remove_loop_ok ext (map (fun e => ([], fst e)) es) (Dir es) Ht (top_nodup es D)) with (rest := @nil (list string * string)) as (t' & T' & M & E).
  { intros df K W. apply in_map_iff in K. destruct K as ((n, x) & <- & K). cbn [fst snd] in *. unfold path. cbn [fst snd app]. rewrite kind_dir_cons.
    assert (X : entry_of n es = Some x) by (apply (entry_in n es D); exact K). rewrite X. destruct x as [| |ds]; [left; reflexivity|right; reflexivity|]. exfalso. apply (Hd n ds K). apply endswith_iff. exact W. }
  rewrite app_nil_r in E. cbn [remove_loop] in E. rewrite app_nil_r in E. rewrite E. eexists. exists t'. split; [reflexivity|]. split; [assumption|].
  assert (K0 : forall name, entry_of name es = None -> kind_at (Dir es) [name] = None) by (intros name K; rewrite kind_dir_cons, K; reflexivity).
  split; [|split].
  - intros name W. rewrite M. destruct (in_dec path_eq [name] _) as [_|I]; [reflexivity|]. apply K0. destruct (entry_of name es) as [x|] eqn:X; [|reflexivity]. exfalso. apply I.
    apply selected_top. exists name, x. split; [reflexivity|]. split; [apply (entry_in name es D); exact X|exact W].
  - intros p K. rewrite M. destruct (in_dec path_eq p _) as [I|_]; [|reflexivity]. exfalso. apply selected_top in I. destruct I as (name & x & I1 & _ & W). apply (K name I1 W).
  - intros p. rewrite M. destruct (in_dec path_eq p _) as [I|I].
    + split; [|intros _; exact I]. intros _. split; [|reflexivity]. apply selected_top in I. destruct I as (name & x & -> & I & _). rewrite kind_dir_cons. apply (entry_in name es D) in I. rewrite I. discriminate.
    + split; [intros K; contradiction|]. intros [K1 K2]. congruence.
Qed.
Print Assumptions C79_flat.
(** C79: a subdirectory with a matching name makes it raise OSError; the matching entries listed before it are gone, everything else stays. *)
Theorem C79_directory : forall before n ds after ext, tree (Dir (before ++ (n, Dir ds) :: after)) -> ends_with n ext -> (forall m es, In (m, Dir es) before -> ~ ends_with m ext) ->
  exists out t', delete_files_with_extension (Some (Dir (before ++ (n, Dir ds) :: after))) ext false = (out, Some t', Err OSError) /\ tree t' /\
    (forall name x, In (name, x) before -> ends_with name ext -> kind_at t' [name] = None) /\
    (forall p, (forall name x, p = [name] -> In (name, x) before -> ~ ends_with name ext) -> kind_at t' p = kind_at (Dir (before ++ (n, Dir ds) :: after)) p).
Proof.
  intros before n ds after ext Ht W Hd. set (es := (before ++ (n, Dir ds) :: after)%list) in *. inversion Ht as [| |? D S]; subst. unfold delete_files_with_extension.
  assert (D' : NoDup (map fst before ++ n :: map fst after)) by (unfold es in D; rewrite map_app in D; exact D).
  assert (Db : NoDup (map fst before)) by (clear - D'; induction (map fst before); [constructor|]; cbn in D'; apply NoDup_cons_iff in D'; destruct D' as [A B]; constructor; [intros K; apply A, in_or_app; auto|auto]).
  assert (Nn : ~ In n (map fst before)) by (apply NoDup_remove_2 in D'; intros K; apply D', in_or_app; auto).
  destruct (remove_loop_ok ext (map (fun e => ([], fst e)) before) (Dir es) Ht (top_nodup before Db)) with (rest := map (fun e : string * node => (@nil string, fst e)) ((n, Dir ds) :: after)) as (t' & T' & M & E).
  { intros df K W'. apply in_map_iff in K. destruct K as ((m, x) & <- & K). cbn [fst snd] in *. unfold path. cbn [fst snd app]. rewrite kind_dir_cons.
    assert (X : entry_of m es = Some x) by (apply (entry_in m es D); unfold es; apply in_or_app; auto). rewrite X. destruct x as [| |ds']; [left; reflexivity|right; reflexivity|]. exfalso. apply (Hd m ds' K). apply endswith_iff. exact W'. }
  rewrite <- map_app in E. fold es in E. rewrite E. clear E.
  assert (Kn : kind_at t' [n] = Some KDir).
  { rewrite M. destruct (in_dec path_eq [n] _) as [I|_].
    - exfalso. apply selected_top in I. destruct I as (name & x & I1 & I2 & _). injection I1 as <-. apply Nn. apply (in_map fst) in I2. exact I2.
    - rewrite kind_dir_cons. assert (X : entry_of n es = Some (Dir ds)) by (apply (entry_in n es D); unfold es; apply in_or_app; right; left; reflexivity). rewrite X. reflexivity. }
  assert (R : os_remove [] n t' = Err OSError).
  { destruct t' as [| |es']; try discriminate. cbn [os_remove]. assert (R : remove_entry n es' = Err OSError).
    { rewrite kind_dir_cons in Kn. clear - Kn. induction es' as [|(m, x) es' IH]; [reflexivity|]. cbn [entry_of remove_entry] in *. destruct (String.eqb m n); [destruct x; reflexivity || discriminate|]. rewrite IH by assumption. reflexivity. }
    rewrite R. reflexivity. }
  cbn [map fst remove_loop]. unfold remove_if. rewrite (proj2 (endswith_iff n ext) W), R.
  eexists. exists t'. split; [reflexivity|]. split; [assumption|]. split.
  - intros name x I W'. rewrite M. destruct (in_dec path_eq [name] _) as [_|I']; [reflexivity|]. exfalso. apply I'. apply selected_top. eauto.
  - intros p K. rewrite M. destruct (in_dec path_eq p _) as [I|_]; [|reflexivity]. exfalso. apply selected_top in I. destruct I as (name & x & I1 & I2 & I3). apply (K name x I1 I2 I3).
Qed.
Print Assumptions C79_directory.
(** C79: a folder that does not exist raises OSError, except with deleteInSubDirectories, where nothing happens; so does a folder that is a file. *)
Theorem C79_missing : forall ext, delete_files_with_extension None ext false = ([], None, Err OSError) /\ delete_files_with_extension None ext true = ([], None, Ok tt) /\
  delete_files_with_extension (Some File) ext false = ([], Some File, Err OSError) /\ delete_files_with_extension (Some File) ext true = ([], Some File, Ok tt).
Proof. repeat split. Qed.
Print Assumptions C79_missing.
(** C79: the extension need not start with a dot: with the empty string every file goes *)
Theorem C79_everything : forall t, tree t -> exists out t', delete_files_with_extension (Some t) "" true = (out, Some t', Ok tt) /\ forall p, p <> [] -> kind_at t' p <> Some KFile.
Proof.
  intros t Ht. destruct (C79_recursive t "" Ht) as (out & t' & E & _ & A & B & _). exists out, t'. split; [exact E|]. intros p Hp K.
  destruct (exists_last Hp) as (q & name & ->).
  destruct (kind_at t (q ++ [name])) as [[| |]|] eqn:X.
  - rewrite (A q name) in K; [discriminate| |exact X]. exists name. clear. induction name; cbn; congruence.
  - rewrite B in K; [congruence|]. intros; congruence.
  - rewrite B in K; [congruence|]. intros; congruence.
  - rewrite B in K; [congruence|]. intros; congruence.
Qed.
Print Assumptions C79_everything.

Example C79_hyp : tree (Dir [("a.txt", File); ("b", Dir [("c.txt", File); ("d", File)]); ("link", DirLink)]) /\
  delete_files_with_extension (Some (Dir [("a.txt", File); ("b", Dir [("c.txt", File); ("d", File)]); ("link", DirLink)])) ".txt" true =
  ([["a.txt"]; ["b"; "c.txt"]], Some (Dir [("b", Dir [("d", File)]); ("link", DirLink)]), Ok tt).
Proof.
  split; [|reflexivity].
  constructor; [repeat constructor; cbn; intuition discriminate|]. intros n x H. cbn in H. destruct H as [H|[H|[H|[]]]]; injection H as <- <-; try constructor.
  - repeat constructor; cbn; intuition discriminate.
  - intros n x H. cbn in H. destruct H as [H|[H|[]]]; injection H as <- <-; constructor.
Qed.
