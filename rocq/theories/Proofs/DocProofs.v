(** * Proofs for the tables of traits *)
From Coq Require Import List Ascii Bool String Arith Lia.
From Verif Require Import Model.Base Model.CsvText Model.Docs Spec.DocTables Proofs.CsvProofs.
Import ListNotations StringSyntax.
Open Scope list_scope.
Open Scope nat_scope.

(** ** Lines *)
Ltac codes := let K := fresh in intros c; split; [intros K; apply existsb_exists in K as (x & K & Q); apply Nat.eqb_eq in Q; cbn in K; lia|
  intros K; apply existsb_exists; exists (nat_of_ascii c); split; [cbn; lia|apply Nat.eqb_refl]].
Lemma white_iff : forall c, white c = true <-> white_space c.
Proof. unfold white, white_space. cbv zeta. codes. Qed.
Lemma breaks_iff : forall c, breaks c = true <-> line_end c.
Proof. unfold breaks, line_end. cbv zeta. codes. Qed.
Definition unbroken (l : text) : Prop := forall c, In c l -> breaks c = false.
Definition complete (l : text) : Prop := exists b, unbroken b /\ ((exists c, breaks c = true /\ l = b ++ [c]) \/ l = b ++ [CR; LF]).
Definition touch (l m : text) : bool := match rev l with c :: _ => Ascii.eqb c CR && begins LF m | [] => false end.
Fixpoint chain (ls : list text) : Prop :=
  match ls with
  | [] => True
  | l :: r => match r with
              | [] => l <> [] /\ (complete l \/ unbroken l)
              | m :: _ => complete l /\ touch l m = false
              end /\ chain r
  end.

Lemma concat_splitlines s : List.concat (splitlines s) = s.
Proof.
  induction s as [|c s IH]; [reflexivity|]. cbn. destruct (ends_line c s); cbn; [now rewrite IH|].
  destruct (splitlines s) as [|l r]; cbn in *; congruence.
Qed.
Lemma unbroken_cons c l : breaks c = false -> unbroken l -> unbroken (c :: l).
Proof. intros B U d [<- | I]; auto. Qed.
Lemma complete_cons c l : breaks c = false -> complete l -> complete (c :: l).
Proof.
  intros B (b & U & [(d & D & ->) | ->]); exists (c :: b); (split; [now apply unbroken_cons|]); [left; exists d; split; [exact D|reflexivity]|right; reflexivity].
Qed.
Lemma touch_cons c l m : l <> [] -> touch (c :: l) m = touch l m.
Proof.
  intros N. unfold touch. cbn [rev]. destruct (rev l) as [|d x] eqn:E; [|reflexivity]. exfalso. apply N. apply (f_equal (@rev ascii)) in E. now rewrite rev_involutive in E.
Qed.
Lemma chain_first l r : chain (l :: r) -> l <> [].
Proof.
  cbn. destruct r as [|m r]; [tauto|]. intros [[(b & _ & [(c & _ & ->) | ->]) _] _]; destruct b; discriminate.
Qed.
Lemma split_first s l r : splitlines s = l :: r -> forall c, begins c l = begins c s.
Proof.
  intros E c. destruct s as [|d s]; [discriminate|]. cbn in E. destruct (ends_line d s); [injection E as <- <-; reflexivity|]. destruct (splitlines s); injection E as <- <-; reflexivity.
Qed.
Lemma splitlines_nil s : splitlines s = [] -> s = [].
Proof. intros E. rewrite <- (concat_splitlines s), E. reflexivity. Qed.
Lemma breaks_CR : breaks CR = true. Proof. reflexivity. Qed.
Lemma chain_splitlines s : chain (splitlines s).
Proof.
  induction s as [|c s IH]; [exact I|]. cbn [splitlines]. unfold ends_line. destruct (breaks c) eqn:B; cbn [andb].
  - destruct (Ascii.eqb c CR && begins LF s) eqn:T; cbn [negb].
    + apply andb_true_iff in T as [T1 T2]. apply Ascii.eqb_eq in T1. subst c. destruct s as [|d s]; [discriminate|]. unfold begins in T2. apply Ascii.eqb_eq in T2. subst d.
      cbn [splitlines] in *. change (ends_line LF s) with true in *. cbn iota in *.
      assert (C : complete [CR; LF]) by (exists []; split; [intros x []|right; reflexivity]).
      destruct (splitlines s) as [|m r]; [split; [split; [discriminate|now left]|exact I]|]. destruct IH as [[_ T] IH]. split; [split; [exact C|exact T]|exact IH].
    + assert (C : complete [c]) by (exists []; split; [intros x []|left; exists c; auto]).
      destruct (splitlines s) as [|m r] eqn:E; cbn; [split; [split; [discriminate|now left]|exact I]|].
      split; [split; [exact C|]|exact IH]. unfold touch. cbn [rev app]. rewrite (split_first s m r E). exact T.
  - destruct (splitlines s) as [|l r] eqn:E; [cbn; split; [split; [discriminate|right; now apply unbroken_cons; [|intros x []]]|exact I]|].
    pose proof (chain_first _ _ IH) as N. destruct r as [|m r]; cbn in *.
    + destruct IH as [[_ H] _]. split; [split; [discriminate|]|exact I]. destruct H; [left; now apply complete_cons|right; now apply unbroken_cons].
    + destruct IH as [[H1 H2] H3]. split; [split; [now apply complete_cons|]|exact H3]. now rewrite touch_cons.
Qed.
Lemma split_unbroken l : l <> [] -> unbroken l -> splitlines l = [l].
Proof.
  induction l as [|c l IH]; intros N U; [easy|]. cbn. unfold ends_line. rewrite (U c) by now left. cbn. destruct l as [|d l]; [reflexivity|].
  rewrite IH; [reflexivity|discriminate|]. intros x I. apply U. now right.
Qed.
Lemma split_complete l s : complete l -> touch l s = false -> splitlines (l ++ s) = l :: splitlines s.
Proof.
  intros (b & U & H). revert U. revert l H. induction b as [|c b IH]; intros l H U T.
  - destruct H as [(c & B & ->) | ->].
    + cbn [app splitlines]. unfold ends_line. rewrite B. cbn [andb]. unfold touch in T. cbn [rev app] in T. rewrite T. reflexivity.
    + cbn [app splitlines]. reflexivity.
  - assert (exists l', l = c :: l' /\ ((exists c, breaks c = true /\ l' = b ++ [c]) \/ l' = b ++ [CR; LF])) as (l' & -> & H').
    { destruct H as [(d & B & ->) | ->]; eexists; (split; [reflexivity|]); [left; exists d; auto|now right]. }
    assert (N : l' <> []) by (destruct H' as [(d & _ & ->) | ->]; destruct b; discriminate).
    cbn [app splitlines]. unfold ends_line. rewrite (U c) by now left. cbn [andb]. rewrite (IH l'); auto.
    + intros x I. apply U. now right.
    + now rewrite touch_cons in T.
Qed.
Lemma touch_concat l ls : touch l (List.concat ls) = match ls with m :: _ => match m with [] => touch l (List.concat ls) | _ => touch l m end | [] => false end.
Proof.
  destruct ls as [|[|d m] ls]; cbn; auto. unfold touch. destruct (rev l); [reflexivity|]. cbn. now rewrite andb_false_r.
Qed.
Lemma split_chain ls : chain ls -> splitlines (List.concat ls) = ls.
Proof.
  induction ls as [|l r IH]; intros C; [reflexivity|]. destruct r as [|m r].
  - destruct C as [[N [C | U]] _]; cbn; rewrite app_nil_r; [|now apply split_unbroken].
    rewrite <- (app_nil_r l) at 1. rewrite split_complete; [reflexivity|exact C|]. unfold touch. destruct (rev l); [reflexivity|]. cbn. now rewrite andb_false_r.
  - destruct C as [[C T] R]. cbn [List.concat]. cbn [List.concat] in IH. rewrite split_complete; [now rewrite IH|exact C|].
    pose proof (chain_first _ _ R) as N. destruct m as [|d m]; [easy|]. exact T.
Qed.

Lemma complete_last l : complete l -> exists t c, l = t ++ [c] /\ breaks c = true /\ forall d, In d t -> breaks d = false \/ (d = CR /\ c = LF).
Proof.
  intros (b & U & [(c & B & ->) | ->]).
  - exists b, c. repeat split; auto.
  - exists (b ++ [CR]), LF. split; [now rewrite <- app_assoc|]. split; [reflexivity|]. intros d I. apply in_app_or in I as [I | [<- | []]]; auto.
Qed.
Lemma splitlines_lines s a l m b : splitlines s = a ++ l :: m :: b ->
  exists t c, l = t ++ [c] /\ breaks c = true /\ ~ (c = CR /\ exists m', m = LF :: m') /\ forall d, In d t -> breaks d = false \/ (d = CR /\ c = LF).
Proof.
  intros E. pose proof (chain_splitlines s) as C. rewrite E in C. clear E s.
  assert (X : complete l /\ touch l m = false). { induction a as [|x a IH]; [now destruct C as [[A B] _]|]. destruct a as [|y a]; destruct C as [_ C]; auto. }
  destruct X as [X T]. destruct (complete_last l X) as (t & c & -> & B & H). exists t, c. repeat split; auto.
  intros [-> (m' & ->)]. unfold touch in T. rewrite rev_app_distr in T. cbn in T. discriminate.
Qed.
Lemma splitlines_ends s l t d u : In l (splitlines s) -> l = t ++ d :: u -> breaks d = true -> u = [] \/ d = CR /\ u = [LF].
Proof.
  intros I E B. pose proof (chain_splitlines s) as C.
  assert (X : complete l \/ unbroken l).
  { revert C I. induction (splitlines s) as [|x r IH]; intros C I; [destruct I|]. cbn in C. destruct C as [C1 C2]. destruct I as [<-|I]; [|auto]. destruct r; [tauto|left; tauto]. }
  assert (G : forall b : text, unbroken b -> In d b -> False) by (intros b U J; rewrite (U d J) in B; discriminate).
  destruct X as [(b & U & H)|U]; [|destruct (G l U); rewrite E; apply in_or_app; right; now left]. subst l.
  clear I. revert t H. induction b as [|x b IH]; intros t H.
  - destruct H as [(c & _ & H)|H]; cbn [app] in H.
    + left. destruct t as [|y t]; [cbn in H; congruence|]. destruct t; cbn in H; discriminate.
    + destruct t as [|y t]; cbn [app] in H; [right; split; congruence|]. left. destruct t as [|z t]; cbn [app] in H; [congruence|]. destruct t; cbn in H; discriminate.
  - destruct t as [|y t]; cbn [app] in H.
    + exfalso. apply (G (x :: b) U). left. destruct H as [(c & _ & H)|H]; congruence.
    + apply (IH ltac:(intros z J; apply U; now right)) with (t := t). destruct H as [(c & Bc & H)|H]; [left; exists c; split; [exact Bc|congruence]|right; congruence].
Qed.

(** ** Indentation *)
Lemma complete_app p l : unbroken p -> complete l -> complete (p ++ l).
Proof.
  intros U C. induction p as [|c p IH]; [exact C|]. apply complete_cons; [apply U; now left|]. apply IH. intros x I. apply U. now right.
Qed.
Lemma unbroken_app p l : unbroken p -> unbroken l -> unbroken (p ++ l).
Proof. intros P L c I. apply in_app_or in I as [I | I]; auto. Qed.
Lemma touch_app p l m : l <> [] -> touch (p ++ l) m = touch l m.
Proof. intros N. induction p as [|c p IH]; [reflexivity|]. cbn [app]. rewrite touch_cons; [exact IH|]. destruct p; [exact N|discriminate]. Qed.
Section Indented.
  Variable p : text.
  Hypothesis Up : unbroken p.
  Notation ind := (indent_line p).
  Lemma ind_complete l : complete l -> complete (ind l).
  Proof. unfold indent_line. destruct (forallb white l); [auto|now apply complete_app]. Qed.
  Lemma ind_touch l m : l <> [] -> touch l m = false -> touch (ind l) (ind m) = false.
  Proof.
    intros N T. assert (X : forall x, touch (ind l) x = touch l x) by (intros x; unfold indent_line; destruct (forallb white l); [reflexivity|now apply touch_app]).
    rewrite X. unfold indent_line. destruct (forallb white m); [exact T|]. destruct p as [|c q] eqn:E; [exact T|].
    unfold touch. destruct (rev l); [reflexivity|]. cbn [begins app]. destruct (Ascii.eqb_spec LF c) as [<- | _]; [|apply andb_false_r].
    exfalso. specialize (Up LF (or_introl eq_refl)). discriminate.
  Qed.
  Lemma chain_ind ls : chain ls -> chain (map ind ls).
  Proof.
    induction ls as [|l r IH]; [auto|]. intros C. pose proof (chain_first _ _ C) as N. destruct r as [|m r].
    - destruct C as [[_ H] _]. cbn. split; [|exact I]. split.
      + unfold indent_line. destruct (forallb white l); [exact N|]. destruct p; [exact N|discriminate].
      + destruct H as [H | H]; [left; now apply ind_complete|right]. unfold indent_line. destruct (forallb white l); [exact H|now apply unbroken_app].
    - destruct C as [[H T] R]. split; [split; [now apply ind_complete|now apply ind_touch]|]. apply (IH R).
  Qed.
  Lemma split_indent s : splitlines (indent p s) = map ind (splitlines s).
  Proof. unfold indent. apply split_chain, chain_ind, chain_splitlines. Qed.
End Indented.
Lemma indent_content k s : content k (indent (repeat " "%char k) s) s.
Proof.
  assert (U : unbroken (repeat " "%char k)) by (intros c I; apply repeat_spec in I; subst; reflexivity).
  exists (map (indent_line (repeat " "%char k)) (splitlines s)), (splitlines s). split; [reflexivity|]. split; [now apply split_indent|]. split; [symmetry; apply concat_splitlines|].
  induction (splitlines s) as [|l r IH]; cbn; constructor; [|exact IH]. unfold indent_line. destruct (forallb white l) eqn:W; [left|now right].
  split; [|reflexivity]. intros c I. rewrite forallb_forall in W. apply white_iff. auto.
Qed.

(** ** Rows *)
Lemma listed_doc mro : listed mro (doc_traits mro).
Proof.
  induction mro as [|[b v] cs IH]; [constructor|]. unfold doc_traits. cbn [flat_map k_has_traits k_vars]. destruct b; [|now apply listed_plain].
  fold (doc_traits cs). induction v as [|[n [t|]] v IHv]; cbn [flat_map app]; [now apply listed_done|apply listed_trait, IHv|apply listed_other, IHv].
Qed.
Lemma listed_same mro l : listed mro l -> l = doc_traits mro.
Proof.
  induction 1; unfold doc_traits in *; cbn [flat_map k_has_traits k_vars] in *; auto.
  - rewrite H. exact IHlisted.
  - cbn [fst snd]. rewrite IHlisted. reflexivity.
Qed.
Definition plain_default (t : tdoc) : Prop := forall l, d_default t = DTuple l -> List.length l = 1.
Lemma literal_shown v c : rst_literal v = Ok c -> default_shown v c.
Proof.
  destruct v as [[|a s]|[|s [|]]|s]; cbn; intros E; try discriminate; injection E as <-.
  - left. auto.
  - right. exists (a :: s). split; [reflexivity|]. left. split; [reflexivity|discriminate].
  - right. exists s. auto.
  - right. exists s. auto.
Qed.
Lemma rows_shown l : (forall n t, In (n, t) l -> n <> [] /\ plain_default t) -> exists rows, trait_rows l = Ok rows /\ Forall2 shows l rows.
Proof.
  induction l as [|[n t] l IH]; intros H; [exists []; split; [reflexivity|constructor]|].
  destruct (H n t (or_introl eq_refl)) as [N P]. destruct IH as (rows & E & F); [intros; apply H; now right|].
  cbn [trait_rows]. destruct n as [|a n]; [easy|]. cbn [rst_literal rbind].
  destruct (rst_literal (d_default t)) as [d|e] eqn:D.
  - cbn [rbind]. rewrite E. cbn [rbind]. eexists. split; [reflexivity|]. constructor; [|exact F].
    do 2 eexists. split; [reflexivity|]. cbn [fst snd]. split; [intros [-> | ->]; reflexivity|]. split; [|now apply literal_shown].
    intros s -> M. destruct s; [easy|reflexivity].
  - exfalso. destruct (d_default t) as [[|]|[|x [|y m]]|] eqn:X; cbn in D; try discriminate; specialize (P _ X); discriminate.
Qed.
Lemma rows_refused l n t x : In (n, t) l -> d_default t = DTuple x -> List.length x <> 1 -> trait_rows l = Err TypeError.
Proof.
  intros I D L. assert (R : rst_literal (d_default t) = Err TypeError) by (rewrite D; destruct x as [|y [|z x]]; cbn in *; [reflexivity|lia|reflexivity]).
  induction l as [|[m u] l IH]; [destruct I|]. cbn [trait_rows].
  assert (M : exists c, rst_literal (DText m) = Ok c) by (destruct m; eexists; reflexivity). destruct M as [c ->]. cbn [rbind].
  destruct I as [[= -> ->] | I]; [rewrite R; reflexivity|]. rewrite IH by exact I. clear. destruct (d_default u) as [[|]|[|a [|]]|]; reflexivity.
Qed.
Lemma table_content mro l : listed mro l -> (forall n t, In (n, t) l -> n <> [] /\ plain_default t) ->
  exists body csv rows, table_of_traits mro = Ok ([LF] ++ txt ".. csv-table:: Traits" ++ [LF] ++ txt "   :header-rows: 1" ++ [LF; LF] ++ body) /\
    content 3 body csv /\ read_csv csv = Some ([txt "name"; txt "symbol"; txt "default value"; txt "help"] :: rows) /\ Forall2 shows l rows.
Proof.
  intros L H. apply listed_same in L. subst l. destruct (rows_shown _ H) as (rows & E & F).
  exists (indent three_spaces (write_rows (header :: rows))), (write_rows (header :: rows)), rows.
  unfold table_of_traits. rewrite E. cbn [rbind]. split; [reflexivity|]. split; [apply (indent_content 3)|]. split; [apply read_back|exact F].
Qed.

(** ** Texts of classes *)
Definition no_percent (s : text) : Prop := ~ In "%"%char s.
Lemma interpolate_plain v s r fuel : no_percent s -> interpolate (List.length s + fuel) v (s ++ r) = do x <- interpolate fuel v r; Ok (s ++ x).
Proof.
  induction s as [|c s IH]; intros N; cbn [List.length Nat.add app]; [destruct (interpolate fuel v r); reflexivity|].
  cbn [interpolate]. destruct (Ascii.eqb_spec c "%") as [-> | _]; [exfalso; apply N; now left|]. rewrite IH by (intros I; apply N; now right).
  destruct (interpolate fuel v r); reflexivity.
Qed.
Lemma interpolate_rest v s fuel : no_percent s -> List.length s <= fuel -> interpolate fuel v s = Ok s.
Proof.
  intros N L. replace fuel with (List.length s + (fuel - List.length s)) by lia. rewrite <- (app_nil_r s) at 3. rewrite interpolate_plain by exact N.
  destruct (fuel - List.length s); cbn; now rewrite app_nil_r.
Qed.
Definition no_brackets (k : text) : Prop := ~ In "("%char k /\ ~ In ")"%char k.
Lemma take_key_end k s : no_brackets k -> take_key 0 (k ++ ")"%char :: s) = Some (k, s).
Proof.
  induction k as [|c k IH]; intros [N M]; [reflexivity|]. cbn [app take_key]. destruct (Ascii.eqb_spec c ")") as [-> | _]; [exfalso; apply M; now left|].
  destruct (Ascii.eqb_spec c "(") as [-> | _]; [exfalso; apply N; now left|].
  rewrite IH by (split; intros I; [apply N|apply M]; now right). reflexivity.
Qed.
Lemma take_key_open k : forall d, ~ In ")"%char k -> take_key d k = None.
Proof.
  induction k as [|c k IH]; intros d N; [reflexivity|]. cbn [take_key]. destruct (Ascii.eqb_spec c ")") as [-> | _]; [exfalso; apply N; now left|].
  assert (M : ~ In ")"%char k) by (intros I; apply N; now right). rewrite !IH by exact M. now destruct (Ascii.eqb c "(").
Qed.
Lemma interpolate_step v fuel key s : no_brackets key ->
  interpolate (S fuel) v ("%"%char :: "("%char :: key ++ ")"%char :: "s"%char :: s) = match v key with Some x => do r <- interpolate fuel v s; Ok (x ++ r) | None => Err KeyError end.
Proof.
  intros K. cbn [interpolate]. change (Ascii.eqb "%" "%") with true. change (Ascii.eqb "(" "%") with false. change (Ascii.eqb "(" "(") with true. cbn iota.
  rewrite take_key_end by exact K. destruct (v key); reflexivity.
Qed.
Lemma interpolate_key v pre key post : no_percent pre -> no_percent post -> no_brackets key ->
  let s := pre ++ ["%"; "("]%char ++ key ++ [")"; "s"]%char ++ post in
  interpolate (List.length s) v s = match v key with Some x => Ok (pre ++ x ++ post) | None => Err KeyError end.
Proof.
  intros A B K s. unfold s. rewrite app_length. rewrite interpolate_plain by exact A. cbn [app List.length]. rewrite interpolate_step by exact K.
  destruct (v key) as [x|]; [|reflexivity]. rewrite interpolate_rest; [reflexivity|exact B|]. rewrite app_length. cbn [List.length]. lia.
Qed.
Lemma documented_table mro table pre post : table_of_traits mro = Ok table -> no_percent pre -> no_percent post ->
  documented mro (Some (pre ++ txt "%(table_of_traits)s" ++ post)) = Ok (pre ++ table ++ post).
Proof.
  intros T A B. unfold documented. rewrite T. cbn [rbind].
  change (txt "%(table_of_traits)s" ++ post) with (["%"; "("]%char ++ txt "table_of_traits" ++ [")"; "s"]%char ++ post).
  rewrite interpolate_key by (auto; split; cbn; intuition discriminate). destruct (list_eq_dec _ _ _) as [_ | N]; [reflexivity|]. now exfalso.
Qed.
Lemma documented_unknown mro table pre key post : table_of_traits mro = Ok table -> no_percent pre -> no_percent post -> no_brackets key ->
  key <> txt "table_of_traits" -> documented mro (Some (pre ++ txt "%(" ++ key ++ txt ")s" ++ post)) = Err KeyError.
Proof.
  intros T A B K N. unfold documented. rewrite T. cbn [rbind].
  change (txt "%(" ++ key ++ txt ")s" ++ post) with (["%"; "("]%char ++ key ++ [")"; "s"]%char ++ post).
  rewrite interpolate_key; auto. destruct (list_eq_dec _ _ _) as [E | _]; [contradiction|reflexivity].
Qed.

(** ** Other percent signs *)
Lemma documented_percent mro table pre post : table_of_traits mro = Ok table -> no_percent pre -> no_percent post ->
  documented mro (Some (pre ++ txt "%%" ++ post)) = Ok (pre ++ txt "%" ++ post).
Proof.
  intros T A B. unfold documented. rewrite T. cbn [rbind]. rewrite app_length, interpolate_plain by exact A. change (txt "%%" ++ post) with ("%"%char :: "%"%char :: post).
  cbn [List.length]. assert (E : forall fuel v s, interpolate (S fuel) v ("%"%char :: "%"%char :: s) = do r <- interpolate fuel v s; Ok ("%"%char :: r)) by reflexivity.
  rewrite E, interpolate_rest by (auto; lia). reflexivity.
Qed.
Lemma documented_last_percent mro table pre : table_of_traits mro = Ok table -> no_percent pre -> documented mro (Some (pre ++ txt "%")) = Err ValueError.
Proof. intros T A. unfold documented. rewrite T. cbn [rbind]. rewrite app_length, interpolate_plain by exact A. reflexivity. Qed.
Lemma documented_open_key mro table pre key : table_of_traits mro = Ok table -> no_percent pre -> ~ In ")"%char key -> documented mro (Some (pre ++ txt "%(" ++ key)) = Err ValueError.
Proof.
  intros T A K. unfold documented. rewrite T. cbn [rbind]. rewrite app_length, interpolate_plain by exact A. change (txt "%(" ++ key) with ("%"%char :: "("%char :: key).
  cbn [List.length interpolate]. change (Ascii.eqb "%" "%") with true. change (Ascii.eqb "(" "%") with false. change (Ascii.eqb "(" "(") with true. cbn iota. now rewrite take_key_open by exact K.
Qed.
Lemma interpolate_bracket v fuel key rest : no_brackets key ->
  interpolate (S fuel) v ("%"%char :: "("%char :: key ++ ")"%char :: rest) =
  match v key, rest with
  | None, _ => Err KeyError
  | Some x, e :: rest => if Ascii.eqb e "s" then do r <- interpolate fuel v rest; Ok (x ++ r) else Err ValueError
  | Some _, [] => Err ValueError
  end.
Proof.
  intros K. cbn [interpolate]. change (Ascii.eqb "%" "%") with true. change (Ascii.eqb "(" "%") with false. change (Ascii.eqb "(" "(") with true. cbn iota.
  rewrite take_key_end by exact K. reflexivity.
Qed.
Lemma interpolate_broken v rest x pre key : no_percent pre -> no_brackets key -> v key = Some x -> (forall c r, rest = c :: r -> c <> "s"%char) ->
  let s := pre ++ "%"%char :: "("%char :: key ++ ")"%char :: rest in interpolate (List.length s) v s = Err ValueError.
Proof.
  intros A K X C s. unfold s. rewrite app_length, interpolate_plain by exact A. cbn [List.length]. rewrite interpolate_bracket by exact K. rewrite X.
  destruct rest as [|c r]; [reflexivity|]. destruct (Ascii.eqb_spec c "s") as [E | _]; [|reflexivity]. now destruct (C c r).
Qed.
Lemma documented_broken mro table pre rest : table_of_traits mro = Ok table -> no_percent pre -> (forall c r, rest = c :: r -> c <> "s"%char) ->
  documented mro (Some (pre ++ txt "%(table_of_traits)" ++ rest)) = Err ValueError.
Proof.
  intros T A C. unfold documented. rewrite T. cbn [rbind]. change (txt "%(table_of_traits)" ++ rest) with ("%"%char :: "("%char :: txt "table_of_traits" ++ ")"%char :: rest).
  apply (interpolate_broken _ _ table); auto.
  split; cbn; intuition discriminate.
Qed.

(** ** Lines of the documentation *)
Lemma cons_eq {A} (x y : A) l m : x :: l = y :: m -> x = y /\ l = m.
Proof. intros E. now injection E. Qed.
Lemma line_inside ls : forall a m b, (forall l, In l ls -> ~ In LF l) -> ~ In LF m -> join_lines ls = a ++ LF :: m ++ LF :: b -> In m (tl ls).
Proof.
  assert (S : forall x y a b, ~ In LF x -> x ++ LF :: y = a ++ LF :: b -> (a = x /\ b = y) \/ exists a', a = x ++ LF :: a' /\ y = a' ++ LF :: b).
  { induction x as [|c x IH]; intros y a b N E.
    - destruct a as [|d a]; cbn [app] in E; apply cons_eq in E as [E1 E2]; [left; subst; auto|right]. subst. exists a. split; reflexivity.
    - destruct a as [|d a]; cbn [app] in E; apply cons_eq in E as [E1 E2]; [exfalso; apply N; left; congruence|]. subst d.
      destruct (IH y a b) as [[-> ->] | (a' & -> & ->)]; [intros I; apply N; now right|exact E2|left; auto|right]. exists a'. split; reflexivity. }
  assert (F : forall ls m b, (forall l, In l ls -> ~ In LF l) -> ~ In LF m -> join_lines ls = m ++ LF :: b -> In m ls).
  { intros [|x [|y r]] m b N M E; [destruct m; discriminate| |].
    - exfalso. apply (N x); [now left|]. cbn [join_lines] in E. rewrite E. apply in_or_app. right. now left.
    - change (x ++ LF :: join_lines (y :: r) = m ++ LF :: b) in E. destruct (S x _ _ _ (N x (or_introl eq_refl)) E) as [[-> _] | (a' & -> & _)]; [now left|].
      exfalso. apply M. apply in_or_app. right. now left. }
  induction ls as [|x r IH]; intros a m b N M E; [destruct a; discriminate|]. destruct r as [|y r].
  - exfalso. apply (N x); [now left|]. cbn [join_lines] in E. rewrite E. apply in_or_app. right. now left.
  - change (x ++ LF :: join_lines (y :: r) = a ++ LF :: m ++ LF :: b) in E. destruct (S x _ _ _ (N x (or_introl eq_refl)) E) as [[-> E'] | (a' & -> & E')]; cbn [tl].
    + apply (F (y :: r) m b); auto. intros l I. apply N. now right.
    + assert (I : In m (tl (y :: r))) by (apply (IH a' m b); auto; intros l I; apply N; now right). cbn [tl] in I. now right.
Qed.
Lemma table_flush mro table pre post ls k : table_of_traits mro = Ok table -> join_lines ls = pre ++ table ++ post -> (forall l, In l ls -> ~ In LF l) ->
  common_indent k ls -> k = 0.
Proof.
  intros T J N C. assert (X : exists b, table = LF :: txt ".. csv-table:: Traits" ++ LF :: b).
  { unfold table_of_traits in T. destruct (trait_rows _) as [rows|]; [|discriminate]. cbn [rbind] in T. injection T as <-. eexists. reflexivity. }
  destruct X as [b ->]. cbn [app] in J. rewrite <- app_assoc in J.
  assert (I : In (txt ".. csv-table:: Traits") (tl ls)). { apply (line_inside ls pre _ (b ++ post)); auto. cbn. intuition discriminate. }
  specialize (C _ I). assert (k <= spaces (txt ".. csv-table:: Traits")) as L; [apply C; intros B; specialize (B "."%char (or_introl eq_refl)); cbv in B; lia|]. cbn in L. lia.
Qed.
Lemma listed_twice a c1 b c2 d v1 w1 v2 w2 n t u l : k_has_traits c1 = true -> k_vars c1 = v1 ++ (n, Some t) :: w1 ->
  k_has_traits c2 = true -> k_vars c2 = v2 ++ (n, Some u) :: w2 -> listed (a ++ c1 :: b ++ c2 :: d) l ->
  exists x y z, l = x ++ (n, t) :: y ++ (n, u) :: z.
Proof.
  intros H1 V1 H2 V2 L. apply listed_same in L. subst l. unfold doc_traits. rewrite flat_map_app. cbn [flat_map]. rewrite flat_map_app. cbn [flat_map].
  rewrite H1, H2, V1, V2, !flat_map_app. cbn [flat_map snd fst app].
  set (f := fun e : text * option tdoc => match snd e with Some t0 => [(fst e, t0)] | None => [] end).
  set (g := fun c : dclass => if k_has_traits c then flat_map f (k_vars c) else []).
  exists (flat_map g a ++ flat_map f v1), (flat_map f w1 ++ flat_map g b ++ flat_map f v2), (flat_map f w2 ++ flat_map g d).
  rewrite <- !app_assoc. cbn [app]. rewrite ?app_assoc. reflexivity.
Qed.
