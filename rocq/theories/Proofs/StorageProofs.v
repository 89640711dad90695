(** * Proofs about storing and loading *)
From Coq Require Import Lia String Ascii DecimalNat DecimalString Sorting.Permutation Sorting.Sorted.
From Verif Require Import Spec.Records.
Open Scope list_scope.
Open Scope nat_scope.

(** ** save_npy *)
Section NpyProofs.
  Context {A : Type}.
  Implicit Types (h : @heap A) (es : list (npy_event A)).

  Lemma vstack_ok n (l : list (list A)) : l <> [] -> (forall x, In x l -> List.length x = n) -> vstack l = Ok l.
  Proof.
    intros N H. destruct l as [|x l]; [easy|]. cbn.
    replace (forallb _ l) with true; [reflexivity|]. symmetry. apply forallb_forall.
    intros y I. apply Nat.eqb_eq. rewrite (H y), (H x); auto; cbn; auto.
  Qed.

  (** Value of a row at the time of the dump, for any history: the heap at that time. *)
  Lemma npy_run_spec n : forall es h buffer files index b,
    in_protocol b es -> (b = true -> buffer <> []) -> width n h es -> left_alone buffer es ->
    exists s, npy_run (Npy h buffer files index b) es = Ok s /\
      n_files s = files ++ combine (seq index (List.length (sent_groups h (map h buffer) es)))
                                   (sent_groups h (map h buffer) es).
  Proof.
    induction es as [|e es IH]; intros h buffer files index b P NB W L.
    - exists (Npy h buffer files index b). split; [reflexivity|]. cbn. now rewrite app_nil_r.
    - destruct W as [W1 W2]. destruct e as [r x | r | d].
      + cbn [npy_run npy_step rbind n_heap n_buffer n_files n_index n_expects_dump].
        destruct L as [L1 L2].
        destruct (IH (write h r x) buffer files index b) as (s & E & F); auto.
        { split; [|intros; apply (W2 r0); now right]. intros q. unfold write.
          destruct (Nat.eqb q r); [|apply W1]. apply (W2 r). now left. }
        exists s. split; [exact E|].
        assert (M : map (write h r x) buffer = map h buffer).
        { apply map_ext_in. intros q I. unfold write. destruct (Nat.eqb_spec q r); [congruence|reflexivity]. }
        rewrite M in F. exact F.
      + destruct P as [-> P]. cbn [npy_run npy_step rbind n_heap n_buffer n_files n_index n_expects_dump].
        destruct (IH h (buffer ++ [r]) files index true) as (s & E & F); auto.
        { intros _ X. now apply app_eq_nil in X as [_ X]. }
        { split; [exact W1|]. intros; apply (W2 r0); now right. }
        { clear -L. cbn in L. revert L.
          assert (G : forall es p q, (forall r, In r q -> In r p) -> left_alone p es -> left_alone q es).
          { clear. induction es as [|[r x|r|[|]] es IH]; intros p q I L; cbn in *; auto.
            - destruct L as [L1 L2]. split; [intros X; apply L1; auto|]. now apply (IH p).
            - apply (IH (r :: p)); [|exact L]. intros u [<- | U]; [now left|right; auto].
            - apply (IH p); auto. }
          apply G. intros u U. apply in_app_iff in U as [U | [<- | []]]; [now right|now left]. }
        exists s. split; [exact E|]. rewrite map_app in F. exact F.
      + destruct P as [-> P]. destruct d.
        * cbn [npy_run npy_step rbind n_heap n_buffer n_files n_index n_expects_dump].
          rewrite (vstack_ok n).
          -- cbn [rbind]. destruct (IH h [] (files ++ [(index, map h buffer)]) (S index) false) as (s & E & F); auto.
             { discriminate. }
             { split; [exact W1|]. intros; apply (W2 r); now right. }
             exists s. split; [exact E|]. rewrite F, <- app_assoc. reflexivity.
          -- intros X. apply map_eq_nil in X. now apply NB.
          -- intros x I. apply in_map_iff in I as (q & <- & _). apply W1.
        * cbn [npy_run npy_step rbind n_heap n_buffer n_files n_index n_expects_dump].
          destruct (IH h buffer files index false) as (s & E & F); auto.
          { split; [exact W1|]. intros; apply (W2 r); now right. }
          exists s. split; [exact E|exact F].
  Qed.

  (** One array sent over and over: a file has one state only. *)
  Fixpoint same_array (r : nat) (es : list (npy_event A)) : Prop :=
    match es with
    | [] => True
    | Change _ _ :: rest => same_array r rest
    | SendData q :: rest => q = r /\ same_array r rest
    | SendDump _ :: rest => same_array r rest
    end.
  Lemma npy_same_array r : forall es s s', npy_run s es = Ok s' -> same_array r es ->
    (forall q, In q (n_buffer s) -> q = r) ->
    (forall i rows, In (i, rows) (n_files s) -> forall x y, In x rows -> In y rows -> x = y) ->
    forall i rows, In (i, rows) (n_files s') -> forall x y, In x rows -> In y rows -> x = y.
  Proof.
    induction es as [|e es IH]; intros s s' E S B F.
    - injection E as <-. exact F.
    - cbn [npy_run] in E. destruct (npy_step s e) as [s1|] eqn:E1; [|discriminate]. cbn [rbind] in E.
      destruct e as [q x | q | d]; unfold npy_step in E1; destruct (n_expects_dump s); try discriminate.
      + injection E1 as <-. refine (IH _ _ E S _ _); auto.
      + injection E1 as <-. refine (IH _ _ E S _ _); auto.
      + injection E1 as <-. destruct S as [-> S]. refine (IH _ _ E S _ _); [|exact F].
        cbn. intros u U. apply in_app_iff in U as [U | [<- | []]]; auto.
      + destruct d; [|injection E1 as <-; refine (IH _ _ E S _ _); auto].
        destruct (vstack (map (n_heap s) (n_buffer s))) as [rs|] eqn:V; [|discriminate].
        cbn [rbind] in E1. injection E1 as <-. refine (IH _ _ E S _ _); [intros ? []|].
        cbn. intros i rows I x y X Y. apply in_app_iff in I as [I | [I | []]]; [now apply (F i rows)|].
        injection I as <- <-. assert (rs = map (n_heap s) (n_buffer s)).
        { unfold vstack in V. destruct (map (n_heap s) (n_buffer s)); [discriminate|].
          destruct (forallb _ l0); [|discriminate]. now injection V as <-. }
        subst rs. apply in_map_iff in X as (u & <- & U). apply in_map_iff in Y as (v & <- & W).
        apply B in U, W. congruence.
      + destruct d; discriminate.
  Qed.
End NpyProofs.

(** ** Names *)
Lemma has_char_app c s t : has_char c (s ++ t)%string = (has_char c s || has_char c t)%bool.
Proof. induction s as [|d s IH]; cbn; [reflexivity|]. now rewrite IH, Bool.orb_assoc. Qed.
Lemma lstrip_all chars s t : (forall c, has_char c s = true -> has_char c chars = true) ->
  lstrip chars (s ++ t)%string = lstrip chars t.
Proof.
  induction s as [|d s IH]; intros H; [reflexivity|]. cbn.
  rewrite (H d) by (cbn; now rewrite Ascii.eqb_refl). apply IH. intros c X. apply H. cbn. now rewrite X, Bool.orb_true_r.
Qed.
Lemma rstrip_all chars s : (forall c, has_char c s = true -> has_char c chars = true) -> rstrip chars s = EmptyString.
Proof.
  induction s as [|d s IH]; intros H; [reflexivity|]. cbn. rewrite IH.
  - now rewrite (H d) by (cbn; now rewrite Ascii.eqb_refl).
  - intros c X. apply H. cbn. now rewrite X, Bool.orb_true_r.
Qed.
Lemma rstrip_app chars s t : (forall c, has_char c t = true -> has_char c chars = true) ->
  (forall c, has_char c s = true -> has_char c chars = false) -> rstrip chars (s ++ t)%string = s.
Proof.
  intros T S. induction s as [|d s IH]; cbn.
  - now apply rstrip_all.
  - rewrite IH by (intros c X; apply S; cbn; now rewrite X, Bool.orb_true_r).
    destruct s as [|d' s]; [|reflexivity]. now rewrite (S d) by (cbn; now rewrite Ascii.eqb_refl).
Qed.
Definition digits : string := "0123456789".
(** Decimal numerals are made of digits. *)
Lemma uint_digits u : forall c, has_char c (NilEmpty.string_of_uint u) = true -> has_char c digits = true.
Proof.
  induction u; cbn [NilEmpty.string_of_uint has_char]; intros c H; try discriminate;
    apply Bool.orb_true_iff in H as [H | H]; auto; apply Ascii.eqb_eq in H; subst; reflexivity.
Qed.
Lemma to_uint_nonnil n : Nat.to_uint n <> Decimal.Nil.
Proof.
  intros E. assert (H : Nat.of_uint (Nat.to_uint n) = n) by apply DecimalNat.Unsigned.of_to.
  destruct n as [|n]; [discriminate|]. rewrite E in H. discriminate.
Qed.
Lemma str_nat_empty n : str_nat n = NilEmpty.string_of_uint (Nat.to_uint n).
Proof. unfold str_nat. pose proof (to_uint_nonnil n). now destruct (Nat.to_uint n). Qed.
Lemma str_nat_digits n c : has_char c (str_nat n) = true -> has_char c digits = true.
Proof. rewrite str_nat_empty. apply uint_digits. Qed.
Lemma str_nat_cons n : exists c s, str_nat n = String c s.
Proof. rewrite str_nat_empty. pose proof (to_uint_nonnil n). destruct (Nat.to_uint n); try easy; cbn; eauto. Qed.
Lemma drop_underscores_digits s : (forall c, has_char c s = true -> has_char c digits = true) ->
  forall b, s <> EmptyString \/ b = true -> drop_underscores b s = Some s.
Proof.
  induction s as [|d s IH]; intros H b N; cbn.
  - destruct N as [N | ->]; [easy|reflexivity].
  - assert (D : Ascii.eqb d "_" = false).
    { destruct (Ascii.eqb_spec d "_"); [|reflexivity]. subst.
      specialize (H "_"%char). cbn in H. discriminate H. reflexivity. }
    rewrite D, IH; [reflexivity| |now right]. intros c X. apply H. cbn. now rewrite X, Bool.orb_true_r.
Qed.
Lemma parse_str n : parse_int (str_nat n) = Ok n.
Proof.
  unfold parse_int. rewrite drop_underscores_digits.
  - unfold str_nat. rewrite NilZero.usu by apply to_uint_nonnil. f_equal. apply DecimalNat.Unsigned.of_to.
  - apply str_nat_digits.
  - left. destruct (str_nat_cons n) as (c & s & ->). discriminate.
Qed.
(** Numerals have neither a sign nor blanks. *)
Lemma digit_cases c : has_char c digits = true -> has_char c blanks = false /\ Ascii.eqb c "-" = false /\ Ascii.eqb c "+" = false.
Proof. cbn. rewrite !Bool.orb_true_iff. intros H. repeat (destruct H as [H|H]; [apply Ascii.eqb_eq in H; subst c; repeat split; reflexivity|]). discriminate. Qed.
Lemma strip_none chars s : (forall c, has_char c s = true -> has_char c chars = false) -> lstrip chars s = s /\ rstrip chars s = s.
Proof.
  induction s as [|c s IH]; intros H; [split; reflexivity|]. assert (X : has_char c chars = false) by (apply H; cbn; now rewrite Ascii.eqb_refl).
  destruct IH as [_ IH]. { intros d D. apply H. cbn. now rewrite D, Bool.orb_true_r. }
  cbn [lstrip rstrip]. rewrite X, IH. split; [reflexivity|]. now destruct s.
Qed.
Lemma python_int_digits s : s <> EmptyString -> (forall c, has_char c s = true -> has_char c digits = true) -> python_int s = do n <- parse_int s; Ok (Z.of_nat n).
Proof.
  intros N H. unfold python_int. destruct (strip_none blanks s) as [E1 E2]. { intros c X. apply digit_cases. auto. }
  rewrite E1, E2. destruct s as [|c s]; [contradiction|]. destruct (digit_cases c) as (_ & -> & ->); [|reflexivity]. apply H. cbn. now rewrite Ascii.eqb_refl.
Qed.
Lemma parse_int_err s e : parse_int s = Err e -> e = ValueError.
Proof. unfold parse_int. destruct (drop_underscores false s); [destruct (NilZero.uint_of_string s0)|]; congruence. Qed.
Lemma python_int_err s e : python_int s = Err e -> e = ValueError.
Proof.
  unfold python_int. destruct (rstrip blanks (lstrip blanks s)) as [|c t]; [congruence|].
  repeat match goal with |- context [if ?b then _ else _] => destruct b end; (destruct (parse_int _) eqn:E; cbn [rbind]; [discriminate|]); intros [= <-]; apply (parse_int_err _ _ E).
Qed.
Lemma python_str n : python_int (str_nat n) = Ok (Z.of_nat n).
Proof.
  rewrite python_int_digits; [now rewrite parse_str| |apply str_nat_digits]. destruct (str_nat_cons n) as (c & s & ->). discriminate.
Qed.
Lemma string_app_assoc (a b c : string) : ((a ++ b) ++ c)%string = (a ++ b ++ c)%string.
Proof. induction a as [|x a IH]; cbn; [reflexivity|]. now rewrite IH. Qed.

(** The index is read back when the base name has no digits. *)
Lemma index_of_name basename n : without_digits basename ->
  python_int (rstrip ".npy" (lstrip (basename ++ "_") (npy_name basename n))) = Ok (Z.of_nat n).
Proof.
  intros W. unfold npy_name. rewrite <- string_app_assoc, lstrip_all.
  - destruct (str_nat_cons n) as (c & s & E).
    assert (D : has_char c digits = true).
    { apply (str_nat_digits n). rewrite E. cbn. now rewrite Ascii.eqb_refl. }
    assert (L : lstrip (basename ++ "_") (str_nat n ++ ".npy") = (str_nat n ++ ".npy")%string).
    { rewrite E. cbn [String.append lstrip]. rewrite has_char_app, (W c D).
      assert (X : has_char c "_" = false).
      { cbn. rewrite Bool.orb_false_r. destruct (Ascii.eqb_spec c "_"); [subst; discriminate|reflexivity]. }
      now rewrite X. }
    rewrite L, rstrip_app; [apply python_str|now intros|].
    intros d X. apply str_nat_digits in X. destruct (has_char d ".npy") eqn:Y; [|reflexivity].
    exfalso. cbn in Y. rewrite !Bool.orb_true_iff in Y.
    destruct Y as [Y | [Y | [Y | [Y | Y]]]]; try discriminate; apply Ascii.eqb_eq in Y; subst; discriminate.
  - intros c X. exact X.
Qed.
Lemma prefix_app s t : String.prefix s (s ++ t)%string = true.
Proof.
  induction s as [|c s IH]; [destruct t; reflexivity|]. cbn.
  destruct (ascii_dec c c); [apply IH|congruence].
Qed.
Lemma endswith_app s t : endswith (s ++ t)%string t = true.
Proof.
  induction s as [|c s IH].
  - cbn. destruct t; cbn [endswith]; rewrite String.eqb_refl; reflexivity.
  - cbn [String.append endswith]. now rewrite IH, Bool.orb_true_r.
Qed.
Lemma npy_name_matches basename n :
  (startswith (npy_name basename n) basename && endswith (npy_name basename n) ".npy")%bool = true.
Proof.
  unfold startswith, npy_name. rewrite prefix_app.
  rewrite <- !string_app_assoc, endswith_app. reflexivity.
Qed.
(** A base name that contains the digit [d]: the file numbered [d] cannot be read. *)
Lemma index_of_name_fails basename d : d < 10 -> (exists c, str_nat d = String c EmptyString /\ has_char c basename = true) ->
  python_int (rstrip ".npy" (lstrip (basename ++ "_") (npy_name basename d))) = Err ValueError.
Proof.
  intros _ (c & E & H). unfold npy_name. rewrite E.
  assert (L : forall chars s c, has_char c (lstrip chars s) = true -> has_char c s = true).
  { clear. induction s as [|d s IH]; intros c H; [exact H|]. cbn in H. destruct (has_char d chars); [|exact H].
    cbn. rewrite (IH _ H). apply Bool.orb_true_r. }
  replace (basename ++ "_" ++ String c EmptyString ++ ".npy")%string
    with ((basename ++ "_" ++ String c EmptyString) ++ ".npy")%string by now rewrite !string_app_assoc.
  rewrite lstrip_all.
  - rewrite rstrip_all; [reflexivity|]. intros x X. now apply L in X.
  - intros x X. rewrite !has_char_app in X. rewrite has_char_app. rewrite !Bool.orb_true_iff in *.
    destruct X as [X | [X | X]]; auto. cbn in X. rewrite Bool.orb_false_r in X. apply Ascii.eqb_eq in X. subst. now left.
Qed.

(** ** Loading *)
Section LoadProofs.
  Context {C : Type}.
  Implicit Types (l : list (Z * C)) (files : list (string * C)).

  Definition matches (basename file : string) : bool :=
    (startswith file basename && endswith file ".npy")%bool.
  Lemma find_only basename files : find_npy_files files basename =
    find_npy_files (filter (fun f => matches basename (fst f)) files) basename.
  Proof.
    induction files as [|[f c] files IH]; [reflexivity|]. cbn [filter fst]. unfold matches at 1.
    destruct (startswith f basename && endswith f ".npy")%bool eqn:E; cbn [find_npy_files]; rewrite E.
    - destruct (python_int _); [|reflexivity]. cbn [rbind]. now rewrite IH.
    - exact IH.
  Qed.
  Definition indexed (p : nat * C) : Z * C := (Z.of_nat (fst p), snd p).
  Lemma find_names basename (l : list (nat * C)) : without_digits basename ->
    find_npy_files (map (fun '(i, c) => (npy_name basename i, c)) l) basename = Ok (map indexed l).
  Proof.
    intros W. induction l as [|[i c] l IH]; [reflexivity|]. cbn [map find_npy_files].
    rewrite npy_name_matches, (index_of_name _ _ W). cbn [rbind]. rewrite IH. reflexivity.
  Qed.
  Lemma insert_perm x l : Permutation (x :: l) (insert_by_index x l).
  Proof.
    induction l as [|y l IH]; cbn; [reflexivity|]. destruct (Z.leb (fst x) (fst y)); [reflexivity|].
    rewrite perm_swap. now rewrite <- IH.
  Qed.
  Lemma sort_perm l : Permutation l (sort_by_index l).
  Proof. induction l as [|x l IH]; cbn; [reflexivity|]. rewrite <- insert_perm. now constructor. Qed.
  Lemma insert_sorted x l : Sorted.StronglySorted (fun a b => (fst a <= fst b)%Z) l ->
    Sorted.StronglySorted (fun a b => (fst a <= fst b)%Z) (insert_by_index x l).
  Proof.
    induction l as [|y l IH]; intros S; cbn; [repeat constructor|].
    inversion S as [|? ? S1 S2]; subst. destruct (Z.leb_spec (fst x) (fst y)).
    - constructor; [exact S|]. constructor; [assumption|]. rewrite Forall_forall in *. intros z Z. specialize (S2 z Z). lia.
    - constructor; [now apply IH|]. rewrite Forall_forall in *. intros z Z.
      apply (Permutation_in _ (Permutation_sym (insert_perm x l))) in Z as [<- | Z]; [lia|auto].
  Qed.
  Lemma sort_sorted l : Sorted.StronglySorted (fun a b => (fst a <= fst b)%Z) (sort_by_index l).
  Proof. induction l; cbn; [constructor|]. now apply insert_sorted. Qed.
  (** A sorted list is determined by its entries when the indices differ. *)
  Lemma sorted_unique : forall l l', Permutation l l' -> NoDup (map fst l) ->
    Sorted.StronglySorted (fun a b => (fst a <= fst b)%Z) l -> Sorted.StronglySorted (fun a b => (fst a <= fst b)%Z) l' -> l = l'.
  Proof.
    induction l as [|x l IH]; intros l' P N S S'.
    - now apply Permutation_nil in P.
    - destruct l' as [|y l']; [now apply Permutation_sym, Permutation_nil in P|].
      inversion S as [|? ? S1 S2]; subst. inversion S' as [|? ? S1' S2']; subst. inversion N as [|? ? N1 N2]; subst.
      assert (E : x = y).
      { assert (X : In x (y :: l')) by (apply (Permutation_in _ P); now left).
        assert (Y : In y (x :: l)) by (apply (Permutation_in _ (Permutation_sym P)); now left).
        destruct X as [X | X]; [auto|]. destruct Y as [Y | Y]; [auto|]. exfalso.
        rewrite Forall_forall in *. specialize (S2 _ Y). specialize (S2' _ X).
        apply N1. replace (fst x) with (fst y) by lia. now apply in_map. }
      subst y. f_equal. apply IH; auto. now apply Permutation_cons_inv in P.
  Qed.
  Lemma numbered_sorted (cs : list C) : forall a, Sorted.StronglySorted (fun a b => (fst a <= fst b)%Z) (map indexed (combine (seq a (List.length cs)) cs)).
  Proof.
    induction cs as [|c cs IH]; intros a; cbn; constructor; [apply IH|].
    apply Forall_forall. intros [i x] I. apply in_map_iff in I as ([j y] & E & I). injection E as <- <-. cbn. apply in_combine_l in I. apply in_seq in I. lia.
  Qed.
  Lemma numbered_fst (cs : list C) a : map fst (combine (seq a (List.length cs)) cs) = seq a (List.length cs).
  Proof. revert a. induction cs as [|c cs IH]; intros a; cbn; [reflexivity|]. now rewrite IH. Qed.
  Lemma numbered_snd (cs : list C) a : map snd (combine (seq a (List.length cs)) cs) = cs.
  Proof. revert a. induction cs as [|c cs IH]; intros a; cbn; [reflexivity|]. now rewrite IH. Qed.

  Lemma load_npy_spec basename (cs : list C) files : without_digits basename ->
    Permutation (filter (fun f => matches basename (fst f)) files)
                (map (fun '(i, c) => (npy_name basename i, c)) (numbered cs)) ->
    load_npy files basename = Ok cs.
  Proof.
    intros W P. unfold load_npy. rewrite find_only.
    apply Permutation_map_inv in P as (l & E & P).
    rewrite E, find_names by exact W. cbn [rbind].
    assert (S : sort_by_index (map indexed l) = map indexed (numbered cs)).
    { apply Permutation_sym in P. symmetry. apply sorted_unique.
      - apply Permutation_sym. rewrite <- sort_perm. apply Permutation_map. exact P.
      - rewrite map_map. unfold indexed. cbn [fst]. rewrite <- (map_map fst Z.of_nat). unfold numbered. rewrite numbered_fst.
        apply FinFun.Injective_map_NoDup; [intros x y; apply Nat2Z.inj|apply seq_NoDup].
      - apply numbered_sorted.
      - apply sort_sorted. }
    rewrite S, map_map. unfold indexed. cbn [snd]. unfold numbered. now rewrite numbered_snd.
  Qed.
End LoadProofs.

(** ** save_csv *)
Section CsvProofs.
  Context {K D : Type}.
  Lemma csv_run_spec : forall (es : list (csv_event K D)) file buffer header b,
    csv_in_protocol b es ->
    forall pending, buffer = (match pending with [] => [] | d :: _ => if header : bool then [] else [Names (map fst d)] end)
                     ++ map (fun d => Values (map snd d)) pending ->
    exists s, csv_run (Csv file buffer (header || match pending with [] => false | _ => true end) b) es = Ok s /\
      c_file s = file ++
        (match dumped_rows pending es with [] => [] | d :: _ => if header then [] else [Names (map fst d)] end)
        ++ map (fun d => Values (map snd d)) (dumped_rows pending es).
  Proof.
    induction es as [|e es IH]; intros file buffer header b P pending B.
    - eexists. split; [reflexivity|]. cbn. now rewrite app_nil_r.
    - destruct e as [d | dump]; destruct P as [-> P].
      + cbn [csv_run csv_step rbind c_file c_buffer c_header c_expects_dump dumped_rows].
        set (buffer' := buffer ++ _).
        destruct (IH file buffer' header true P (pending ++ [d])) as (s & E & F).
        { unfold buffer'. rewrite B, map_app. destruct pending as [|p ps]; cbn [app].
          - rewrite Bool.orb_false_r. destruct header; reflexivity.
          - rewrite Bool.orb_true_r. cbn [app]. destruct header; cbn [app]; rewrite ?app_nil_l, <- ?app_assoc; reflexivity. }
        exists s. split; [|exact F]. rewrite <- E. f_equal. f_equal.
        destruct pending; cbn; now rewrite Bool.orb_true_r.
      + destruct dump.
        * cbn [csv_run csv_step rbind c_file c_buffer c_header c_expects_dump dumped_rows].
          destruct (IH (file ++ buffer) [] (header || match pending with [] => false | _ => true end)%bool false P [])
            as (s & E & F); [reflexivity|].
          rewrite Bool.orb_false_r in E. exists s. split; [exact E|]. rewrite F, B.
          destruct pending as [|p ps]; cbn [app map].
          -- rewrite Bool.orb_false_r, app_nil_r. reflexivity.
          -- rewrite Bool.orb_true_r, map_app. unfold dict in *.
             match goal with |- context [dumped_rows ?x es] => destruct (dumped_rows x es) end; destruct header; cbn [app map]; rewrite <- ?app_assoc; cbn [app]; rewrite ?app_nil_r; reflexivity.
        * cbn [csv_run csv_step rbind c_file c_buffer c_header c_expects_dump dumped_rows].
          apply (IH _ _ _ _ P _ B).
  Qed.
  Lemma csv_spec (es : list (csv_event K D)) file : csv_in_protocol false es ->
    exists s, csv_run (csv_start file) es = Ok s /\
      c_file s = file ++
        (match dumped_rows [] es with [] => [] | d :: _ => [Names (map fst d)] end)
        ++ map (fun d => Values (map snd d)) (dumped_rows [] es).
  Proof. intros P. exact (csv_run_spec es file [] false false P [] eq_refl). Qed.
  Lemma dumped_sent : forall (es : list (csv_event K D)) row, In row (dumped_rows [] es) -> In (SendRow row) es.
  Proof.
    assert (G : forall (es : list (csv_event K D)) pending row, In row (dumped_rows pending es) -> In row pending \/ In (SendRow row) es).
    { induction es as [|[d|[|]] es IH]; intros pending row I; cbn in *.
      - destruct I.
      - apply IH in I as [I | I]; [|now right; right]. apply in_app_iff in I as [I | [<- | []]]; auto.
      - apply in_app_iff in I as [I | I]; auto. apply IH in I as [[] | I]. auto.
      - apply IH in I as [I | I]; auto. }
    intros es row I. now destruct (G es [] row I) as [[] | J].
  Qed.
End CsvProofs.

(** ** Geometry files *)
Section JsonProofs.
  Context {G M : Type} (mapping : G -> M) (shape : M -> G) (is_empty : G -> bool).
  Notation value := (@geometry_value G).
  Lemma map_values_compose {X Y Z} (f : X -> res Y) (g : Y -> res Z) (h : X -> Z) l :
    (forall k x, In (k, x) l -> exists y, f x = Ok y /\ g y = Ok (h x)) ->
    exists m, map_values f l = Ok m /\ map_values g m = Ok (map (fun '(k, x) => (k, h x)) l).
  Proof.
    induction l as [|[k x] l IH]; intros H; [now exists []|].
    destruct (H k x (or_introl eq_refl)) as (y & E1 & E2).
    destruct IH as (m & F1 & F2); [intros; apply (H k0); now right|].
    exists ((k, y) :: m). cbn. rewrite E1, F1. cbn. rewrite E2, F2. auto.
  Qed.
  Lemma map_values_fails {X Y} (f : X -> res Y) e l :
    (forall k x, In (k, x) l -> (exists y, f x = Ok y) \/ f x = Err e) ->
    (exists k x, In (k, x) l /\ f x = Err e) -> map_values f l = Err e.
  Proof.
    induction l as [|[k x] l IH]; intros H (k0 & x0 & I & E); [destruct I|]. cbn.
    destruct I as [I | I].
    - injection I as -> ->. now rewrite E.
    - destruct (H k x (or_introl eq_refl)) as [(y & ->) | ->]; [|reflexivity]. cbn.
      rewrite IH; [reflexivity|intros; apply (H k1); now right|]. now exists k0, x0.
  Qed.
  Lemma map_values_in {X Y} (f : X -> res Y) : forall l m, map_values f l = Ok m ->
    forall k x, In (k, x) l -> exists y, f x = Ok y /\ In (k, y) m.
  Proof.
    induction l as [|[k x] l IH]; intros m E k0 x0 I; [destruct I|]. cbn in E.
    destruct (f x) as [y|] eqn:F; [|discriminate]. cbn in E.
    destruct (map_values f l) as [r|] eqn:R; [|discriminate]. cbn in E. injection E as <-.
    destruct I as [I | I].
    - injection I as -> ->. exists y. split; [exact F|now left].
    - destruct (IH r eq_refl _ _ I) as (z & Z1 & Z2). exists z. split; [exact Z1|now right].
  Qed.
  Lemma map_values_in_inv {X Y} (f : X -> res Y) : forall l m, map_values f l = Ok m ->
    forall k y, In (k, y) m -> exists x, f x = Ok y /\ In (k, x) l.
  Proof.
    induction l as [|[k x] l IH]; intros m E k0 y0 I; cbn in E; [injection E as <-; destruct I|].
    destruct (f x) as [y|] eqn:F; [|discriminate]. cbn in E.
    destruct (map_values f l) as [r|] eqn:R; [|discriminate]. cbn in E. injection E as <-.
    destruct I as [I | I].
    - injection I as -> ->. exists x. split; [exact F|now left].
    - destruct (IH r eq_refl _ _ I) as (z & Z1 & Z2). exists z. split; [exact Z1|now right].
  Qed.

  Lemma json_roundtrip geometries : (forall g, shape (mapping g) = g) ->
    (forall k v, In (k, v) geometries -> v = VNone \/ exists l, v = VList l) ->
    exists file, save_geometry_json mapping is_empty [] geometries = Ok file /\
      load_geometry_json shape file = Ok geometries.
  Proof.
    intros S H. unfold save_geometry_json.
    destruct (map_values_compose (geometry_mapping mapping is_empty) (geometry_shape shape) (fun v => v) geometries) as (m & E & F).
    { intros k v I. destruct (H k v I) as [-> | (l & ->)].
      - exists JNull. auto.
      - exists (JList (map mapping l)). cbn. rewrite map_map. split; [reflexivity|].
        do 2 f_equal. rewrite <- (map_id l) at 2. apply map_ext. exact S. }
    exists [m]. rewrite E. split; [reflexivity|]. cbn. rewrite F. f_equal.
    rewrite <- (map_id geometries) at 2. apply map_ext. now intros [k v].
  Qed.
  Lemma json_single_fails geometries file k g : save_geometry_json mapping is_empty [] geometries = Ok file ->
    In (k, VGeom g) geometries -> load_geometry_json shape file = Err AttributeError.
  Proof.
    unfold save_geometry_json. destruct (map_values (geometry_mapping mapping is_empty) geometries) as [m|] eqn:E; [|discriminate].
    cbn. intros F I. injection F as <-. cbn.
    apply map_values_fails.
    - intros k0 v _. destruct v; cbn; eauto.
    - destruct (map_values_in _ _ _ E _ _ I) as (v & V & J). cbn in V. destruct (is_empty g); [discriminate|].
      injection V as <-. exists k, (JObject (mapping g)). auto.
  Qed.
  Lemma json_second_save file geometries geometries' file' file'' :
    save_geometry_json mapping is_empty file geometries = Ok file' ->
    save_geometry_json mapping is_empty file' geometries' = Ok file'' ->
    load_geometry_json shape file'' = Err ValueError.
  Proof.
    unfold save_geometry_json. destruct (map_values _ geometries); [|discriminate].
    destruct (map_values _ geometries'); [|intros _; discriminate]. cbn. intros E1 E2.
    injection E1 as <-. injection E2 as <-. unfold load_geometry_json.
    destruct file as [|d [|d' file]]; reflexivity.
  Qed.
End JsonProofs.
