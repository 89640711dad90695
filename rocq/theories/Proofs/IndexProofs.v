(** Proofs about whole numbers in texts and the order of numbered files. *)
From Coq Require Import Lia DecimalString Sorting.Permutation.
From Verif Require Import Model.Storage Spec.Records Spec.Indices Proofs.StorageProofs.
Open Scope list_scope.
Open Scope nat_scope.

(** ** Characters *)
Lemma has_char_in c s : has_char c s = true <-> In c (list_ascii_of_string s).
Proof.
  induction s as [|d s IH]; cbn; [easy|]. rewrite Bool.orb_true_iff, IH. split; (intros [H|H]; [left|now right]).
  - now apply Ascii.eqb_eq in H. - subst. apply Ascii.eqb_refl.
Qed.
Lemma in_app_string c a b : In c (list_ascii_of_string (a ++ b)) <-> In c (list_ascii_of_string a) \/ In c (list_ascii_of_string b).
Proof. rewrite <- !has_char_in, has_char_app, Bool.orb_true_iff. reflexivity. Qed.
Lemma only_app k a b : only k (a ++ b) <-> only k a /\ only k b.
Proof. unfold only. split. - intros H. split; intros c Hc; apply H, in_app_string; auto. - intros [H1 H2] c Hc. apply in_app_string in Hc as [Hc|Hc]; auto. Qed.
Lemma only_cons k c s : only k (String c s) <-> k c /\ only k s.
Proof. unfold only. cbn. split. - intros H. split; auto. - intros [H1 H2] d [<-|H]; auto. Qed.
Lemma only_nil k : only k EmptyString. Proof. intros c []. Qed.
Lemma all_ascii (P : ascii -> bool) : forallb P (map ascii_of_nat (seq 0 256)) = true -> forall c, P c = true.
Proof.
  intros H c. rewrite forallb_forall in H. apply H. apply in_map_iff. exists (nat_of_ascii c). split; [apply ascii_nat_embedding|]. apply in_seq. pose proof (nat_ascii_bounded c). lia.
Qed.
Definition is_digit (c : ascii) : bool := (48 <=? nat_of_ascii c) && (nat_of_ascii c <? 58).
Lemma is_digit_iff c : is_digit c = true <-> digit c.
Proof. unfold is_digit, digit. rewrite Bool.andb_true_iff, Nat.leb_le, Nat.ltb_lt. reflexivity. Qed.
Lemma blank_iff c : has_char c blanks = true <-> blank c.
Proof.
  assert (E : has_char c blanks = (((9 <=? nat_of_ascii c) && (nat_of_ascii c <=? 13)) || ((28 <=? nat_of_ascii c) && (nat_of_ascii c <=? 32)))).
  { apply Bool.eqb_prop. revert c. apply all_ascii. vm_compute. reflexivity. }
  rewrite E, Bool.orb_true_iff, !Bool.andb_true_iff, !Nat.leb_le. reflexivity.
Qed.
Definition code (c : ascii) : nat := nat_of_ascii c - 48.
Definition ticked (c : ascii) (u : Decimal.uint) : option Decimal.uint :=
  match code c with 0 => Some (Decimal.D0 u) | 1 => Some (Decimal.D1 u) | 2 => Some (Decimal.D2 u) | 3 => Some (Decimal.D3 u) | 4 => Some (Decimal.D4 u)
  | 5 => Some (Decimal.D5 u) | 6 => Some (Decimal.D6 u) | 7 => Some (Decimal.D7 u) | 8 => Some (Decimal.D8 u) | 9 => Some (Decimal.D9 u) | _ => None end.
Lemma uint_of_char_is c u : uint_of_char c (Some u) = if is_digit c then ticked c u else None.
Proof. destruct c as [b0 b1 b2 b3 b4 b5 b6 b7]. destruct b0, b1, b2, b3, b4, b5, b6, b7; reflexivity. Qed.
Lemma of_uint_acc_tick c u v a : is_digit c = true -> ticked c u = Some v -> Nat.of_uint_acc v a = Nat.of_uint_acc u (10 * a + code c).
Proof.
  intros D. apply is_digit_iff in D. unfold digit in D. unfold ticked. assert (B : code c < 10) by (unfold code; lia). remember (code c) as k. 
  do 10 (destruct k as [|k]; [intros [= <-]; cbn [Nat.of_uint_acc]; rewrite <- ?DecimalNat.Unsigned.of_uint_acc_spec; f_equal; rewrite ?Nat.tail_mul_spec; lia|]). lia.
Qed.
Lemma ticked_some c u : is_digit c = true -> exists v, ticked c u = Some v.
Proof. intros D. apply is_digit_iff in D. unfold digit in D. unfold ticked. assert (B : code c < 10) by (unfold code; lia). remember (code c) as k. do 10 (destruct k as [|k]; [eauto|]). lia. Qed.
Lemma empty_uint s : (forall u, NilEmpty.uint_of_string s = Some u -> only digit s /\ forall a, Nat.of_uint_acc u a = fold_left (fun n c => 10 * n + code c) (list_ascii_of_string s) a) /\
  (only digit s -> exists u, NilEmpty.uint_of_string s = Some u).
Proof.
  induction s as [|c s [IH1 IH2]].
  - split; [|eexists; reflexivity]. cbn. intros u [= <-]. split; [apply only_nil|reflexivity].
  - cbn [NilEmpty.uint_of_string]. split.
    + intros u. destruct (NilEmpty.uint_of_string s) as [v|] eqn:E; [|discriminate]. rewrite uint_of_char_is. destruct (is_digit c) eqn:D; [|discriminate]. intros T.
      destruct (IH1 v eq_refl) as [O V]. split. { apply only_cons. split; auto. now apply is_digit_iff. } intros a. cbn [list_ascii_of_string fold_left]. rewrite <- V. now apply of_uint_acc_tick.
    + intros O. apply only_cons in O as [D O]. destruct (IH2 O) as [v E]. rewrite E, uint_of_char_is. apply is_digit_iff in D. rewrite D. now apply ticked_some.
Qed.
Lemma zero_uint s n : (exists u, NilZero.uint_of_string s = Some u /\ Nat.of_uint u = n) <-> s <> EmptyString /\ only digit s /\ n = worth s.
Proof.
  destruct s as [|c s]; [split; [intros (u & E & _); discriminate|intros [N _]; contradiction]|]. change (NilZero.uint_of_string (String c s)) with (NilEmpty.uint_of_string (String c s)).
  destruct (empty_uint (String c s)) as [A B]. split.
  - intros (u & E & <-). destruct (A u E) as [O V]. split; [discriminate|]. split; auto. unfold Nat.of_uint. rewrite V. reflexivity.
  - intros (_ & O & ->). destruct (B O) as [u E]. exists u. split; auto. destruct (A u E) as [_ V]. unfold Nat.of_uint. rewrite V. reflexivity.
Qed.

(** ** Underscores *)
Lemma digit_not_underscore c : digit c -> Ascii.eqb c "_" = false.
Proof. intros D. destruct (Ascii.eqb_spec c "_"); auto. subst. unfold digit in D. cbn in D. lia. Qed.
Lemma drop_app g : only digit g -> forall b r, g <> EmptyString \/ b = true -> drop_underscores b (g ++ r) = option_map (fun t => (g ++ t)%string) (drop_underscores true r).
Proof.
  induction g as [|c g IH]; intros O b r N.
  - destruct N as [N| ->]; [contradiction|]. cbn. destruct (drop_underscores true r); reflexivity.
  - apply only_cons in O as [D O]. cbn [append drop_underscores]. rewrite (digit_not_underscore c D), (IH O true r) by now right. destruct (drop_underscores true r); reflexivity.
Qed.
Lemma app_nil_string s : (s ++ EmptyString)%string = s. Proof. induction s as [|c s IH]; cbn; [reflexivity|]. now rewrite IH. Qed.
Lemma drop_grouped text ds : grouped text ds -> drop_underscores false text = Some ds /\ ds <> EmptyString /\ only digit ds.
Proof.
  induction 1 as [g N O|g text ds N O G (IH & _ & IH3)].
  - split; [|auto]. rewrite <- (app_nil_string g) at 1. rewrite drop_app by auto. cbn. now rewrite app_nil_string.
  - split; [|split].
    + rewrite drop_app by auto. cbn. now rewrite IH.
    + destruct g; [contradiction|discriminate].
    + apply only_app; auto.
Qed.
Lemma drop_inv s : forall b t, drop_underscores b s = Some t -> only digit t ->
  if b then (s = t \/ exists g text ds, s = (g ++ "_" ++ text)%string /\ t = (g ++ ds)%string /\ grouped text ds) else grouped s t.
Proof.
  induction s as [|c s IH]; intros b t H O.
  - cbn in H. destruct b; [|discriminate]. injection H as <-. now left.
  - cbn in H. destruct (Ascii.eqb_spec c "_") as [->|N].
    + destruct b; [|discriminate]. right. exists EmptyString, s, t. split; auto. split; auto. apply (IH false t H O).
    + destruct (drop_underscores true s) as [t'|] eqn:E; [|discriminate]. injection H as <-. apply only_cons in O as [D O].
      specialize (IH true t' E O). cbn iota in IH. assert (OC : only digit (String c EmptyString)) by (apply only_cons; split; auto; apply only_nil).
      destruct IH as [->|(g & text & ds & -> & -> & G)].
      * destruct b; [now left|]. apply grouped_one; [discriminate|]. apply only_cons; auto.
      * apply only_app in O as [Og _]. destruct b; [right; exists (String c g), text, ds; auto|]. apply (grouped_more (String c g)); auto; [discriminate|]. apply only_cons; auto.
Qed.
Lemma parse_int_iff s n : parse_int s = Ok n <-> exists ds, grouped s ds /\ n = worth ds.
Proof.
  unfold parse_int. split.
  - destruct (drop_underscores false s) as [t|] eqn:E; [|discriminate]. destruct (NilZero.uint_of_string t) as [u|] eqn:U; [|discriminate]. intros [= H].
    destruct (proj1 (zero_uint t n) (ex_intro _ u (conj U H))) as (N & O & W). exists t. split; auto. exact (drop_inv s false t E O).
  - intros (ds & G & ->). destruct (drop_grouped s ds G) as (E & N & O). rewrite E. destruct (proj2 (zero_uint ds (worth ds)) (conj N (conj O eq_refl))) as (u & -> & ->). reflexivity.
Qed.

(** ** Stripping *)
Lemma lstrip_spec chars s : exists front, s = (front ++ lstrip chars s)%string /\ only (fun c => has_char c chars = true) front /\ forall c t, lstrip chars s = String c t -> has_char c chars = false.
Proof.
  induction s as [|c s (f & E & O & H)]; [exists EmptyString; repeat split; [apply only_nil|discriminate]|]. cbn [lstrip]. destruct (has_char c chars) eqn:D.
  - exists (String c f). split; [cbn; now rewrite <- E|]. split; auto. apply only_cons; auto.
  - exists EmptyString. split; auto. split; [apply only_nil|]. now intros d t [= <- <-].
Qed.
Lemma lstrip_done chars front r : only (fun c => has_char c chars = true) front -> (forall c t, r = String c t -> has_char c chars = false) -> lstrip chars (front ++ r) = r.
Proof.
  induction front as [|c f IH]; intros O H.
  - destruct r as [|d r]; [reflexivity|]. cbn. now rewrite (H d r eq_refl).
  - apply only_cons in O as [D O]. cbn. rewrite D. auto.
Qed.
Lemma rstrip_spec chars s : exists back, s = (rstrip chars s ++ back)%string /\ only (fun c => has_char c chars = true) back /\ forall t c, rstrip chars s = (t ++ String c EmptyString)%string -> has_char c chars = false.
Proof.
  induction s as [|c s (b & E & O & H)]; [exists EmptyString; repeat split; [apply only_nil|intros [|? ?] c; discriminate]|]. cbn [rstrip]. destruct (rstrip chars s) as [|d r] eqn:S.
  - destruct (has_char c chars) eqn:D.
    + exists (String c b). cbn in *. split; [now rewrite <- E|]. split; [apply only_cons; auto|]. intros [|? ?] ? X; discriminate.
    + exists b. split; [cbn in *; now rewrite <- E|]. split; auto. intros [|e t] d X; cbn in X; [now injection X as <-|]. injection X as _ X. destruct t; discriminate.
  - exists b. split; [cbn in *; now rewrite <- E|]. split; auto. intros [|e t] x X; [discriminate|]. cbn in X. injection X as _ X. exact (H t x X).
Qed.
Lemma rstrip_back chars b : only (fun c => has_char c chars = true) b -> rstrip chars b = EmptyString.
Proof. induction b as [|c b IH]; intros O; [reflexivity|]. apply only_cons in O as [D O]. cbn. now rewrite (IH O), D. Qed.
Lemma rstrip_done chars r back : only (fun c => has_char c chars = true) back -> (forall t c, r = (t ++ String c EmptyString)%string -> has_char c chars = false) -> rstrip chars (r ++ back) = r.
Proof.
  intros O. induction r as [|c r IH]; intros H; [now apply rstrip_back|]. cbn. rewrite IH; [|intros t d ->; apply (H (String c t)); reflexivity].
  destruct r as [|e r]; [|reflexivity]. now rewrite (H EmptyString c eq_refl).
Qed.
Lemma strip_unique cl cr s mid : rstrip cr (lstrip cl s) = mid -> mid <> EmptyString -> exists front back, s = (front ++ mid ++ back)%string /\
  only (fun c => has_char c cl = true) front /\ only (fun c => has_char c cr = true) back /\ (forall c t, mid = String c t -> has_char c cl = false) /\
  (forall t c, mid = (t ++ String c EmptyString)%string -> has_char c cr = false).
Proof.
  intros E N. destruct (lstrip_spec cl s) as (f & E1 & O1 & H1). destruct (rstrip_spec cr (lstrip cl s)) as (b & E2 & O2 & H2). rewrite E in E2, H2.
  exists f, b. split; [now rewrite <- E2|]. split; auto. split; auto. split; auto. intros c t ->. apply (H1 c (t ++ b)%string). exact E2.
Qed.
Lemma strip_gives cl cr front mid back : only (fun c => has_char c cl = true) front -> only (fun c => has_char c cr = true) back -> mid <> EmptyString ->
  (forall c t, mid = String c t -> has_char c cl = false) -> (forall t c, mid = (t ++ String c EmptyString)%string -> has_char c cr = false) -> rstrip cr (lstrip cl (front ++ mid ++ back)) = mid.
Proof.
  intros O1 O2 N H1 H2. rewrite lstrip_done; auto; [now apply rstrip_done|]. intros c t E. destruct mid as [|d m]; [contradiction|]. injection E as <- _. apply (H1 d m eq_refl).
Qed.

(** ** Whole numbers *)
Lemma only_weaken (k k' : ascii -> Prop) s : (forall c, k c -> k' c) -> only k s -> only k' s.
Proof. intros H O c Hc. auto. Qed.
Lemma grouped_ends text ds : grouped text ds -> text <> EmptyString /\ (forall c t, text = String c t -> digit c) /\ (forall t c, text = (t ++ String c EmptyString)%string -> digit c).
Proof.
  induction 1 as [g N O|g text ds N O G (IH1 & IH2 & IH3)].
  - split; auto. split; intros; subst; apply O; [now left|]. apply in_app_string. right. now left.
  - split; [destruct g; [contradiction|discriminate]|]. split.
    + intros c t E. destruct g as [|d g]; [contradiction|]. injection E as <- _. apply O. now left.
    + intros t c E. clear N O IH2. revert t E. induction g as [|d g IHg]; intros t E.
      * cbn in E. destruct t as [|e t]; [cbn in E; injection E as _ E; contradiction|]. cbn in E. injection E as _ E. exact (IH3 t c E).
      * destruct t as [|e t]; [cbn in E; injection E as _ E; destruct g; discriminate|]. cbn in E. injection E as _ E. exact (IHg t E).
Qed.
Lemma digit_not_blank c : digit c -> has_char c blanks = false.
Proof. intros D. destruct (has_char c blanks) eqn:E; auto. apply blank_iff in E. unfold digit, blank in *. lia. Qed.
Lemma python_int_iff s z : python_int s = Ok z <-> int_text s z.
Proof.
  assert (BL : forall a, only blank a <-> only (fun c => has_char c blanks = true) a) by (intros a; split; apply only_weaken; intros c; apply blank_iff).
  unfold python_int. split.
  - intros H. destruct (rstrip blanks (lstrip blanks s)) as [|c t] eqn:E; [discriminate|]. destruct (strip_unique _ _ _ _ E) as (a & b & -> & Oa & Ob & _ & _); [discriminate|]. apply BL in Oa, Ob.
    destruct (Ascii.eqb_spec c "-") as [->|N1]; [|destruct (Ascii.eqb_spec c "+") as [->|N2]].
    + destruct (parse_int t) as [n|] eqn:P; [|discriminate]. injection H as <-. apply parse_int_iff in P as (ds & G & ->). exact (int_text_minus a t b ds Oa Ob G).
    + destruct (parse_int t) as [n|] eqn:P; [|discriminate]. injection H as <-. apply parse_int_iff in P as (ds & G & ->). exact (int_text_plus a t b ds Oa Ob G).
    + destruct (parse_int (String c t)) as [n|] eqn:P; [|discriminate]. injection H as <-. apply parse_int_iff in P as (ds & G & ->). exact (int_text_plain a (String c t) b ds Oa Ob G).
  - assert (LAST : forall sg text ds, grouped text ds -> forall t c, (sg ++ text)%string = (t ++ String c EmptyString)%string -> digit c).
    { intros sg text ds G. destruct (grouped_ends _ _ G) as (N & _ & L). induction sg as [|e sg IH]; intros t c X; [exact (L t c X)|]. destruct t as [|e' t]; cbn in X; injection X as _ X; [|exact (IH t c X)]. destruct sg; [cbn in X; contradiction|discriminate]. }
    intros H. destruct H as [a text b ds Oa Ob G|a text b ds Oa Ob G|a text b ds Oa Ob G]; apply BL in Oa, Ob; destruct (grouped_ends _ _ G) as (N & F & L).
    + rewrite strip_gives; auto.
      * destruct text as [|c t]; [contradiction|]. pose proof (F c t eq_refl) as D. unfold digit in D. destruct (Ascii.eqb_spec c "-") as [->|_]; [cbn in D; lia|]. destruct (Ascii.eqb_spec c "+") as [->|_]; [cbn in D; lia|].
        rewrite (proj2 (parse_int_iff _ _) (ex_intro _ ds (conj G eq_refl))). reflexivity.
      * intros c t E. apply digit_not_blank. eauto.
      * intros t c E. apply digit_not_blank. eauto.
    + change (a ++ "+" ++ text ++ b)%string with (a ++ ("+" ++ text) ++ b)%string. rewrite strip_gives; auto; [cbn; rewrite (proj2 (parse_int_iff _ _) (ex_intro _ ds (conj G eq_refl))); reflexivity|discriminate| |].
      * intros c t [= <- _]. reflexivity.
      * intros t c E. apply digit_not_blank. exact (LAST "+"%string text ds G t c E).
    + change (a ++ "-" ++ text ++ b)%string with (a ++ ("-" ++ text) ++ b)%string. rewrite strip_gives; auto; [cbn; rewrite (proj2 (parse_int_iff _ _) (ex_intro _ ds (conj G eq_refl))); reflexivity|discriminate| |].
      * intros c t [= <- _]. reflexivity.
      * intros t c E. apply digit_not_blank. exact (LAST "-"%string text ds G t c E).
Qed.
Lemma int_text_nonempty z : ~ int_text EmptyString z.
Proof. intros H. apply python_int_iff in H. discriminate. Qed.
Lemma index_iff basename file z : python_int (rstrip ".npy" (lstrip (basename ++ "_") file)) = Ok z <-> index_text basename file z.
Proof.
  assert (X : forall chars c, has_char c chars = false <-> ~ In c (list_ascii_of_string chars)) by (intros chars c; rewrite <- has_char_in; destruct (has_char c chars); split; congruence).
  rewrite python_int_iff. split.
  - intros H. destruct (strip_unique (basename ++ "_") ".npy" file _ eq_refl) as (f & b & E & O1 & O2 & H1 & H2); [intros N; rewrite N in H; exact (int_text_nonempty z H)|].
    exists f, (rstrip ".npy" (lstrip (basename ++ "_") file)), b. split; auto. split; [revert O1; apply only_weaken; intros c; apply has_char_in|]. split; [revert O2; apply only_weaken; intros c; apply has_char_in|].
    split; [intros c t E'; apply X; eauto|]. split; [intros t c E'; apply X; eauto|]. exact H.
  - intros (f & mid & b & -> & O1 & O2 & H1 & H2 & H). rewrite strip_gives; auto.
    + revert O1. apply only_weaken. intros c. apply has_char_in.
    + revert O2. apply only_weaken. intros c. apply has_char_in.
    + intros ->. exact (int_text_nonempty z H).
    + intros c t E. apply X. eauto.
    + intros t c E. apply X. eauto.
Qed.

(** ** Files *)
Lemma prefix_iff p s : String.prefix p s = true <-> exists r, s = (p ++ r)%string.
Proof.
  revert s. induction p as [|c p IH]; intros s; [destruct s; cbn; (split; [intros _; eexists; reflexivity|reflexivity])|].
  destruct s as [|d s]; [cbn; split; [discriminate|intros (r & E); discriminate]|]. cbn.
  destruct (ascii_dec c d) as [<-|N]; [rewrite IH|]; split.
  - intros (r & ->). now exists r. - intros (r & [= ->]). now exists r. - discriminate. - intros (r & [= -> _]). contradiction.
Qed.
Lemma endswith_iff s suf : endswith s suf = true <-> exists r, s = (r ++ suf)%string.
Proof.
  induction s as [|c s IH]; cbn [endswith]; rewrite Bool.orb_true_iff, String.eqb_eq.
  - split; [intros [<-|E]; [now exists EmptyString|discriminate]|]. intros ([|d r] & E); [left; exact E|discriminate].
  - rewrite IH. split.
    + intros [<-|(r & ->)]; [now exists EmptyString|now exists (String c r)].
    + intros ([|d r] & E); [left; exact E|]. right. cbn in E. injection E as _ E. eauto.
Qed.
Lemma candidate_iff b f : (startswith f b && endswith f ".npy")%bool = true <-> candidate b f.
Proof. rewrite Bool.andb_true_iff. unfold startswith, candidate. now rewrite prefix_iff, endswith_iff. Qed.
Section Files.
  Context {C : Type}.
  Implicit Types (files : list (string * C)) (l : list (Z * C)).
  Lemma find_iff b files l : find_npy_files files b = Ok l <-> exists sel, picked (fun f => candidate b (fst f)) files sel /\ Forall2 (fun f p => index_text b (fst f) (fst p) /\ snd p = snd f) sel l.
  Proof.
    revert l. induction files as [|[f c] files IH]; intros l; cbn [find_npy_files].
    - split; [intros [= <-]; exists []; repeat constructor|]. intros (sel & P & F). inversion P; subst. now inversion F.
    - destruct (startswith f b && endswith f ".npy")%bool eqn:M.
      + pose proof (proj1 (candidate_iff b f) M) as CD. split.
        * intros H. destruct (python_int _) as [z|] eqn:E; [|discriminate]. cbn [rbind] in H. destruct (find_npy_files files b) as [l'|] eqn:E'; [|discriminate]. injection H as <-.
          destruct (proj1 (IH l') eq_refl) as (sel & P & F). exists ((f, c) :: sel). split; [now constructor|]. constructor; auto. split; auto. now apply index_iff.
        * intros (sel & P & F). inversion P as [|? ? r K P'|? ? r K P']; subst; [|contradiction]. inversion F as [|? [z c'] ? l' [I S] F']; subst. cbn in I, S. subst c'.
          apply index_iff in I. rewrite I. cbn [rbind]. rewrite (proj2 (IH l') (ex_intro _ r (conj P' F'))). reflexivity.
      + assert (CD : ~ candidate b f) by (intros CD; apply candidate_iff in CD; congruence). rewrite IH. split.
        * intros (sel & P & F). exists sel. split; auto. now apply picked_out.
        * intros (sel & P & F). inversion P as [|? ? r K P'|? ? r K P']; subst; [contradiction|]. eauto.
  Qed.
  Lemma find_err b files e : find_npy_files files b = Err e -> e = ValueError /\ exists f, In f files /\ candidate b (fst f) /\ forall z, ~ index_text b (fst f) z.
  Proof.
    induction files as [|[f c] files IH]; cbn [find_npy_files]; [discriminate|]. destruct (startswith f b && endswith f ".npy")%bool eqn:M.
    - destruct (python_int _) as [z|x] eqn:E; cbn [rbind].
      + destruct (find_npy_files files b) as [l|y]; [discriminate|]. cbn [rbind]. intros [= <-]. destruct (IH eq_refl) as (-> & g & I & H). split; auto. exists g. split; [now right|auto].
      + intros [= <-]. split; [now apply python_int_err in E|]. exists (f, c). split; [now left|]. split; [now apply candidate_iff|]. intros z I. apply index_iff in I. cbn in I. congruence.
    - intros H. destruct (IH H) as (-> & g & I & K). split; auto. exists g. split; [now right|auto].
  Qed.
  Lemma find_bad b files f : In f files -> candidate b (fst f) -> (forall z, ~ index_text b (fst f) z) -> find_npy_files files b = Err ValueError.
  Proof.
    intros I K N. destruct (find_npy_files files b) as [l|e] eqn:E; [|now destruct (find_err _ _ _ E) as [-> _]]. exfalso. apply find_iff in E as (sel & P & F).
    assert (J : In f sel) by (clear - P I K; induction P as [|x l r X P IH|x l r X P IH]; [destruct I|destruct I as [<-|I]; [now left|right; auto]|destruct I as [<-|I]; [contradiction|auto]]).
    clear - J F N. induction F as [|x [z c] sel l [X _] F IH]; [destruct J|]. destruct J as [<-|J]; [exact (N z X)|auto].
  Qed.
  Lemma insert_filter (x : Z * C) l z : filter (fun y => Z.eqb (fst y) z) (insert_by_index x l) = filter (fun y => Z.eqb (fst y) z) (x :: l).
  Proof.
    induction l as [|y l IH]; [reflexivity|]. cbn [insert_by_index]. destruct (Z.leb_spec (fst x) (fst y)) as [L|L]; [reflexivity|].
    cbn [filter] in *. rewrite IH. destruct (Z.eqb_spec (fst x) z), (Z.eqb_spec (fst y) z); auto. lia.
  Qed.
  Lemma sort_in_order l : in_order l (sort_by_index l).
  Proof.
    split; [apply sort_sorted|]. intros z. induction l as [|x l IH]; [reflexivity|]. change (sort_by_index (x :: l)) with (insert_by_index x (sort_by_index l)).
    rewrite insert_filter. cbn [filter]. now rewrite IH.
  Qed.
  Lemma in_order_unique l : forall a b, in_order l a -> in_order l b -> a = b.
  Proof.
    intros a b [Sa Fa] [Sb Fb]. assert (F : forall z, filter (fun x => Z.eqb (fst x) z) a = filter (fun x => Z.eqb (fst x) z) b) by (intros z; now rewrite Fa, Fb). clear Fa Fb l.
    revert b Sb F. induction a as [|x a IH]; intros b Sb F.
    - destruct b as [|y b]; [reflexivity|]. specialize (F (fst y)). cbn in F. rewrite Z.eqb_refl in F. discriminate.
    - destruct b as [|y b]; [specialize (F (fst x)); cbn in F; rewrite Z.eqb_refl in F; discriminate|].
      inversion Sa as [|? ? Sa1 Sa2]; subst. inversion Sb as [|? ? Sb1 Sb2]; subst. rewrite Forall_forall in Sa2, Sb2.
      assert (E : fst x = fst y).
      { assert (IN : forall u l l', (forall z, filter (fun x => Z.eqb (fst x) z) l = filter (fun x => Z.eqb (fst x) z) l') -> In u l -> In u l').
        { intros u l l' FF I. assert (J : In u (filter (fun x => Z.eqb (fst x) (fst u)) l)) by (apply filter_In; split; auto; apply Z.eqb_refl). rewrite FF in J. now apply filter_In in J. }
        assert (X : In x (y :: b)) by (apply (IN x (x :: a)); auto; now left). assert (Y : In y (x :: a)) by (apply (IN y (y :: b)); auto; now left).
        destruct X as [->|X]; auto. destruct Y as [->|Y]; auto. specialize (Sa2 y Y). specialize (Sb2 x X). lia. }
      pose proof (F (fst x)) as F0. cbn [filter] in F0. rewrite <- E, Z.eqb_refl in F0. injection F0 as -> _.
      f_equal. apply IH; auto. intros z. specialize (F z). cbn [filter] in F. destruct (Z.eqb (fst y) z); [now injection F|exact F].
  Qed.
End Files.
