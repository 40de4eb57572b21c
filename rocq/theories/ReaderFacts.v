(** C68: reading files.  Specification in TextSpec.v *)
From Verif Require Import Base Spec Feature Sample SampleSpec SampleFacts TextSpec Reader.
From Coq Require Import Ascii String.
From Coq Require Import List.
Import ListNotations.
Open Scope char_scope.
Open Scope R_scope.

(** *** splitting *)
Lemma split_none : forall p l, (forall c, In c l -> p c = false) -> split_by p l = [l].
Proof. intros p l H. induction l as [|a t IH]; [reflexivity|]. cbn [split_by]. rewrite (H a) by (left; reflexivity). rewrite IH by (intros; apply H; right; assumption). reflexivity. Qed.
Lemma split_sep : forall p q a t, (forall c, In c q -> p c = false) -> p a = true -> split_by p (q ++ a :: t) = q :: split_by p t.
Proof.
  intros p q a t H Ha. induction q as [|b q IH]; cbn [app split_by]; [rewrite Ha; reflexivity|].
  rewrite (H b) by (left; reflexivity). rewrite IH by (intros; apply H; right; assumption). reflexivity.
Qed.
Lemma split_nonempty : forall p l, split_by p l <> [].
Proof. intros p l. induction l as [|a t IH]; cbn [split_by]; [discriminate|]. destruct (p a); [discriminate|]. destruct (split_by p t); [congruence|discriminate]. Qed.

Lemma split_joined : forall c ps, ps <> [] -> (forall p, In p ps -> ~ In c p) -> split_by (Ascii.eqb c) (joined [c] ps) = ps.
Proof.
  intros c ps Hne Hc.
  assert (N : forall p, In p ps -> forall a, In a p -> Ascii.eqb c a = false).
  { intros p Hp a Ha. apply Ascii.eqb_neq. intros ->. exact (Hc p Hp Ha). }
  clear Hc. induction ps as [|p ps IH]; [congruence|]. destruct ps as [|q ps].
  - cbn [joined]. apply split_none. apply N. left. reflexivity.
  - change (joined [c] (p :: q :: ps)) with (p ++ c :: joined [c] (q :: ps)). rewrite split_sep.
    + f_equal. apply IH; [discriminate|]. intros r Hr. apply N. right. exact Hr.
    + apply N. left. reflexivity.
    + apply Ascii.eqb_refl.
Qed.

(** *** lines *)
Lemma strip_cr_snoc : forall l, strip_cr (l ++ [CR]) = l.
Proof. intros l. unfold strip_cr. rewrite rev_app_distr. cbn [rev app]. change (Ascii.eqb CR "013") with true. cbn iota. apply rev_involutive. Qed.
Lemma strip_cr_id : forall l, (forall l', l <> l' ++ [CR]) -> strip_cr l = l.
Proof.
  intros l H. unfold strip_cr. destruct (rev l) as [|c r] eqn:E; [reflexivity|]. destruct (Ascii.eqb_spec c "013"); [|reflexivity].
  exfalso. apply (H (rev r)). rewrite <- (rev_involutive l), E, e. reflexivity.
Qed.
Lemma lines_cons : forall l e t, line_ok l -> line_end e -> file_lines (l ++ e ++ t) = l :: file_lines t.
Proof.
  intros l e t [H1 H2] He. unfold file_lines.
  assert (N : forall c, In c l -> Ascii.eqb "010" c = false) by (intros c Hc; apply Ascii.eqb_neq; intros <-; exact (H1 Hc)).
  assert (L : forall x, removelast (x :: split_by (Ascii.eqb "010") t) = x :: removelast (split_by (Ascii.eqb "010") t)).
  { intros x. cbn [removelast]. destruct (split_by (Ascii.eqb "010") t) eqn:E; [exfalso; exact (split_nonempty _ _ E)|reflexivity]. }
  assert (L2 : forall x, last (x :: split_by (Ascii.eqb "010") t) [] = last (split_by (Ascii.eqb "010") t) []).
  { intros x. destruct (split_by (Ascii.eqb "010") t) eqn:E; [exfalso; exact (split_nonempty _ _ E)|reflexivity]. }
  destruct He as [-> | ->].
  - change (l ++ [LF] ++ t) with (l ++ LF :: t). rewrite split_sep; [|exact N|reflexivity]. rewrite L, L2. cbn [map app]. rewrite strip_cr_id by exact H2. reflexivity.
  - replace (l ++ [CR; LF] ++ t) with ((l ++ [CR]) ++ LF :: t) by (rewrite <- app_assoc; reflexivity). rewrite split_sep; [| |reflexivity].
    + rewrite L, L2. cbn [map app]. rewrite strip_cr_snoc. reflexivity.
    + intros c Hc. apply in_app_or in Hc. destruct Hc as [Hc|[<-|[]]]; [apply N, Hc|reflexivity].
Qed.
Lemma lines_file : forall ls t, file_of ls t -> Forall line_ok ls -> file_lines t = ls.
Proof.
  intros ls t F. induction F as [|l Hl|l e ls t He F IH]; intros H.
  - reflexivity.
  - inversion H as [|? ? [H1 H2] _]; subst. unfold file_lines. rewrite split_none by (intros c Hc; apply Ascii.eqb_neq; intros <-; exact (H1 Hc)).
    cbn [removelast map app last]. destruct l; [congruence|reflexivity].
  - inversion H; subst. rewrite lines_cons by assumption. rewrite IH by assumption. reflexivity.
Qed.

(** *** blanks *)
Lemma blank_ws : forall c, blank c -> is_ws c = true.
Proof. intros c H. repeat (destruct H as [<-|H]; [reflexivity|]). destruct H. Qed.
Lemma ws_blank : forall c, is_ws c = true -> blank c.
Proof.
  intros c H. unfold is_ws in H. assert (E : c = ascii_of_nat (nat_of_ascii c)) by (symmetry; apply ascii_nat_embedding). revert E H. set (n := nat_of_ascii c). intros E H.
  assert (Hn : n = 9%nat \/ n = 10%nat \/ n = 11%nat \/ n = 12%nat \/ n = 13%nat \/ n = 32%nat).
  { apply Bool.orb_true_iff in H. destruct H as [H|H]; [|apply Nat.eqb_eq in H; lia]. apply Bool.andb_true_iff in H. destruct H as [Ha Hb]. apply Nat.leb_le in Ha, Hb. lia. }
  rewrite E. unfold blank. repeat (destruct Hn as [Hn|Hn]; [rewrite Hn; simpl; tauto|]). rewrite Hn. simpl. tauto.
Qed.
Lemma trim_start_blank : forall pre l, Forall blank pre -> trim_start (pre ++ l) = trim_start l.
Proof. intros pre l H. induction H as [|c pre Hc H IH]; [reflexivity|]. cbn [app trim_start]. rewrite (blank_ws c Hc). exact IH. Qed.
Definition solid (l : text) : Prop := exists a t, l = a :: t /\ is_ws a = false.
Lemma trim_start_solid : forall l, solid l -> trim_start l = l.
Proof. intros l [a [t [-> H]]]. cbn [trim_start]. rewrite H. reflexivity. Qed.
Lemma solid_app : forall l m, solid l -> solid (l ++ m).
Proof. intros l m [a [t [-> H]]]. exists a, (t ++ m). split; [reflexivity|exact H]. Qed.
Lemma trim_spec : forall pre l post, Forall blank pre -> Forall blank post -> solid l -> solid (rev l) -> trim (pre ++ l ++ post) = l.
Proof.
  intros pre l post Hp Hq S1 S2. unfold trim. rewrite trim_start_blank by exact Hp. rewrite (trim_start_solid (l ++ post)) by (apply solid_app; exact S1).
  rewrite rev_app_distr. rewrite trim_start_blank by (apply Forall_rev; exact Hq). rewrite trim_start_solid by exact S2. apply rev_involutive.
Qed.

(** *** digits *)
Ltac lt10 H := match type of H with (?d < 10)%nat => do 10 (destruct d as [|d]; [|]); [..|exfalso; lia] end.
Lemma digit_of_char : forall d, (d < 10)%nat -> digit_of (digit_char d) = Some d.
Proof. intros d H. do 10 (destruct d as [|d]; [reflexivity|]). lia. Qed.
Lemma digit_of_some : forall c d, digit_of c = Some d -> (d < 10)%nat /\ c = digit_char d.
Proof.
  intros c d H. unfold digit_of in H. destruct ((Nat.leb 48 (nat_of_ascii c) && Nat.leb (nat_of_ascii c) 57)%bool) eqn:E; [|discriminate].
  inversion H. apply Bool.andb_true_iff in E. destruct E as [Ea Eb]. apply Nat.leb_le in Ea, Eb. split; [lia|].
  unfold digit_char. replace (48 + (nat_of_ascii c - 48))%nat with (nat_of_ascii c) by lia. symmetry. apply ascii_nat_embedding.
Qed.
Definition no_digit (l : text) : Prop := match l with [] => True | a :: _ => digit_of a = None end.
Lemma take_digits_ok : forall ds rest, digits_ok ds -> no_digit rest -> take_digits (digits_text ds ++ rest) = (ds, rest).
Proof.
  intros ds rest H Hr. induction H as [|d ds Hd H IH].
  - cbn. destruct rest as [|a t]; [reflexivity|]. cbn [take_digits]. simpl in Hr. rewrite Hr. reflexivity.
  - cbn [digits_text map app take_digits]. rewrite (digit_of_char d Hd). change (map digit_char ds) with (digits_text ds). rewrite IH. reflexivity.
Qed.
Lemma take_digits_inv : forall l, l = digits_text (fst (take_digits l)) ++ snd (take_digits l) /\ digits_ok (fst (take_digits l)) /\ no_digit (snd (take_digits l)).
Proof.
  intros l. induction l as [|a t IH]; [cbn; repeat split; constructor|]. cbn [take_digits]. destruct (digit_of a) as [d|] eqn:E.
  - destruct (digit_of_some a d E) as [Hd ->]. destruct IH as [I1 [I2 I3]]. cbn [fst snd]. repeat split; [cbn [digits_text map app]; f_equal; exact I1|constructor; assumption|exact I3].
  - cbn. repeat split; [constructor|exact E].
Qed.
Lemma number_app : forall a b, number_of (a ++ b) = (number_of a * 10 ^ length b + number_of b)%nat.
Proof.
  intros a b. unfold number_of. rewrite fold_left_app. generalize (fold_left (fun a d => (10 * a + d)%nat) a 0%nat) as x. intros x.
  assert (G : forall b x, fold_left (fun a d => (10 * a + d)%nat) b x = (x * 10 ^ length b + fold_left (fun a d => (10 * a + d)%nat) b 0)%nat).
  { clear. induction b as [|d b IH]; intros x; cbn [fold_left length]; [simpl; lia|]. rewrite IH, (IH (10 * 0 + d)%nat). rewrite Nat.pow_succ_r'. lia. }
  apply G.
Qed.
Lemma fraction_number : forall ds, fraction ds = INR (number_of ds) / 10 ^ length ds.
Proof.
  induction ds as [|d ds IH]; [simpl; field|]. change (d :: ds) with ([d] ++ ds) at 2 3. rewrite number_app. cbn [fraction app length]. rewrite IH.
  rewrite plus_INR, mult_INR, pow_INR. replace (INR 10) with 10 by (simpl; ring). replace (number_of [d]) with d by (unfold number_of; simpl; lia).
  rewrite <- tech_pow_Rmult. field. apply pow_nonzero. lra.
Qed.

(** *** numbers *)
Lemma powerRZ_pow : forall k, powerRZ 10 (Z.of_nat k) = 10 ^ k.
Proof. intros k. rewrite <- pow_powerRZ. reflexivity. Qed.
Lemma powerRZ_neg_pow : forall k, powerRZ 10 (- Z.of_nat k) = / 10 ^ k.
Proof. intros k. rewrite powerRZ_neg', powerRZ_pow. reflexivity. Qed.
Lemma powerRZ_sub : forall e k, powerRZ 10 (e - Z.of_nat k) = powerRZ 10 e / 10 ^ k.
Proof. intros e k. unfold Z.sub. rewrite powerRZ_add by lra. rewrite powerRZ_neg_pow. reflexivity. Qed.

Lemma special_head : forall a t, (lower a <> "i" /\ lower a <> "n") -> special (a :: t) = false.
Proof.
  intros a t [H1 H2]. unfold special. cbn [existsb map].
  destruct (list_eq_dec ascii_dec _ _) as [E|_]; [inversion E; congruence|].
  destruct (list_eq_dec ascii_dec _ _) as [E|_]; [inversion E; congruence|].
  destruct (list_eq_dec ascii_dec _ _) as [E|_]; [inversion E; congruence|]. reflexivity.
Qed.
Lemma digit_not_special : forall d, (d < 10)%nat -> lower (digit_char d) <> "i" /\ lower (digit_char d) <> "n".
Proof. intros d H. do 10 (destruct d as [|d]; [split; discriminate|]). lia. Qed.
Lemma digit_not_sign : forall d, (d < 10)%nat -> Ascii.eqb (digit_char d) "-" = false /\ Ascii.eqb (digit_char d) "+" = false.
Proof. intros d H. do 10 (destruct d as [|d]; [split; reflexivity|]). lia. Qed.
Lemma digit_not_ws : forall d, (d < 10)%nat -> is_ws (digit_char d) = false.
Proof. intros d H. do 10 (destruct d as [|d]; [reflexivity|]). lia. Qed.

Definition unsigned (l : text) : Prop := match l with [] => True | a :: _ => Ascii.eqb a "-" = false /\ Ascii.eqb a "+" = false end.
Lemma take_sign_ok : forall s l, unsigned l -> take_sign (sign_text s ++ l) = (match s with Minus => true | _ => false end, l).
Proof. intros [ | | ] l H; [|reflexivity|reflexivity]. destruct l as [|a l]; [reflexivity|]. destruct H as [H1 H2]. cbn [sign_text app take_sign]. rewrite H1, H2. reflexivity. Qed.
Lemma unsigned_digits : forall ds l, digits_ok ds -> ds <> [] -> unsigned (digits_text ds ++ l).
Proof. intros ds l H Hne. destruct H as [|d ds Hd H]; [congruence|]. exact (digit_not_sign d Hd). Qed.

Lemma parse_exp_ok : forall e s ds, (e = "e"%char \/ e = "E"%char) -> digits_ok ds -> ds <> [] ->
  parse_exp (e :: sign_text s ++ digits_text ds) = Some (match s with Minus => - Z.of_nat (number_of ds) | _ => Z.of_nat (number_of ds) end)%Z.
Proof.
  intros e s ds He Hd Hne. cbn [parse_exp]. replace (Ascii.eqb e "e" || Ascii.eqb e "E")%bool with true by (destruct He as [-> | ->]; reflexivity).
  rewrite take_sign_ok by (rewrite <- (app_nil_r (digits_text ds)); apply unsigned_digits; assumption). cbn [snd fst].
  rewrite <- (app_nil_r (digits_text ds)), take_digits_ok by (try exact I; assumption). destruct ds; [congruence|]. destruct s; reflexivity.
Qed.

Lemma no_digit_tail : forall l, literal_ok l -> no_digit (match l_exp l with None => [] | Some (e, s, ds) => e :: sign_text s ++ digits_text ds end).
Proof. intros l [_ [_ [_ H]]]. destruct (l_exp l) as [[[e s] ds]|]; [|exact I]. destruct H as [[-> | ->] _]; reflexivity. Qed.
Lemma exp_value : forall (l : literal), literal_ok l ->
  exists z, parse_exp (match l_exp l with None => [] | Some (e, s, ds) => e :: sign_text s ++ digits_text ds end) = Some z /\
    powerRZ 10 z = match l_exp l with None => 1 | Some (_, s, ds) => power10 s (digits_number ds) end.
Proof.
  intros l [_ [_ [_ H]]]. destruct (l_exp l) as [[[e s] ds]|]; [|exists 0%Z; split; reflexivity]. destruct H as [He [Hd Hn]].
  eexists. split; [apply parse_exp_ok; assumption|]. change digits_number with number_of. destruct s; [apply powerRZ_pow|apply powerRZ_pow|apply powerRZ_neg_pow].
Qed.

(** every decimal literal is read as its value *)
Lemma parse_literal : forall l, literal_ok l -> parse_f64 (literal_text l) = Ok (literal_value l).
Proof.
  intros l Hl. pose proof Hl as [Hi [Hf [Hne He]]]. pose proof (no_digit_tail l Hl) as Ht. destruct (exp_value l Hl) as [z [Ez Vz]].
  set (tail := match l_exp l with None => [] | Some (e, s, ds) => e :: sign_text s ++ digits_text ds end) in *.
  set (fr := match l_frac l with Some ds => ds | None => [] end) in *.
  set (mid := match l_frac l with None => [] | Some ds => "."%char :: digits_text ds end).
  assert (Hmid : no_digit (mid ++ tail)) by (unfold mid; destruct (l_frac l); [reflexivity|exact Ht]).
  assert (Hhead : exists a t, digits_text (l_int l) ++ mid ++ tail = a :: t /\ Ascii.eqb a "-" = false /\ Ascii.eqb a "+" = false /\ lower a <> "i"%char /\ lower a <> "n"%char).
  { destruct (l_int l) as [|d ds] eqn:Ei.
    - destruct Hne as [Hne|[d [ds Ef]]]; [congruence|]. unfold mid. rewrite Ef. cbn [app digits_text map]. do 2 eexists. split; [reflexivity|]. repeat split; discriminate.
    - inversion Hi as [|? ? Hd _]; subst. cbn [digits_text map app]. do 2 eexists. split; [reflexivity|]. destruct (digit_not_sign d Hd), (digit_not_special d Hd). repeat split; assumption. }
  assert (Eparse : forall s, parse_f64 (sign_text s ++ digits_text (l_int l) ++ mid ++ tail) = Ok (signed s ((INR (digits_number (l_int l)) + fraction fr) * powerRZ 10 z))).
  { intros s. unfold parse_f64. rewrite take_sign_ok.
    2:{ destruct Hhead as [a [t [-> [H1 [H2 _]]]]]. split; assumption. }
    cbn [snd fst]. replace (special (digits_text (l_int l) ++ mid ++ tail)) with false.
    2:{ symmetry. destruct Hhead as [a [t [-> [_ [_ H3]]]]]. apply special_head. exact H3. }
    rewrite take_digits_ok by assumption. cbn [snd fst].
    assert (Efp : match mid ++ tail with a :: t => if Ascii.eqb a "." then take_digits t else ([], mid ++ tail) | [] => ([], []) end = (fr, tail)).
    { unfold mid, fr. destruct (l_frac l) as [ds|].
      - cbn [app]. change (Ascii.eqb "." ".") with true. cbn iota. apply take_digits_ok; [exact Hf|exact Ht].
      - cbn [app]. unfold tail. destruct (l_exp l) as [[[e s'] ds]|]; [|reflexivity]. destruct He as [[-> | ->] _]; reflexivity. }
    rewrite Efp. cbn [fst snd]. rewrite Ez.
    assert (Hds : l_int l ++ fr <> []).
    { destruct Hne as [Hne|[d [ds Ef]]]; [destruct (l_int l); [congruence|discriminate]|]. unfold fr. rewrite Ef. destruct (l_int l); discriminate. }
    destruct (l_int l ++ fr) as [|d0 ds0] eqn:E0; [congruence|]. rewrite <- E0.
    assert (V : INR (number_of (l_int l ++ fr)) * powerRZ 10 (z - Z.of_nat (length fr)) = (INR (digits_number (l_int l)) + fraction fr) * powerRZ 10 z).
    { rewrite powerRZ_sub, fraction_number, number_app. change digits_number with number_of. rewrite plus_INR, mult_INR, pow_INR. replace (INR 10) with 10 by (simpl; ring).
      field. apply pow_nonzero. lra. }
    rewrite V. destruct s; reflexivity. }
  unfold literal_text. fold mid tail. rewrite Eparse. rewrite Vz. unfold literal_value. fold fr. reflexivity.
Qed.

(** the other direction: what is read is a decimal literal *)
Lemma take_sign_inv : forall l, exists s, l = sign_text s ++ snd (take_sign l) /\ fst (take_sign l) = match s with Minus => true | _ => false end.
Proof.
  intros [|a l]; [exists NoSign; split; reflexivity|]. cbn [take_sign]. destruct (Ascii.eqb_spec a "-") as [->|_]; [exists Minus; split; reflexivity|].
  destruct (Ascii.eqb_spec a "+") as [->|_]; [exists Plus; split; reflexivity|]. exists NoSign. split; reflexivity.
Qed.
Lemma parse_exp_inv : forall t z, parse_exp t = Some z ->
  t = [] \/ exists e s ds, t = e :: sign_text s ++ digits_text ds /\ (e = "e"%char \/ e = "E"%char) /\ digits_ok ds /\ ds <> [].
Proof.
  intros [|e t] z H; [left; reflexivity|]. right. cbn [parse_exp] in H. destruct (Ascii.eqb e "e" || Ascii.eqb e "E")%bool eqn:Ee; [|discriminate].
  destruct (take_sign_inv t) as [s [Es _]]. destruct (take_digits_inv (snd (take_sign t))) as [Ed [Hd _]]. destruct (take_digits (snd (take_sign t))) as [[|d ds] [|a r]]; try discriminate.
  cbn [fst snd] in Ed, Hd. rewrite app_nil_r in Ed. exists e, s, (d :: ds). split; [rewrite Es at 1; rewrite Ed; reflexivity|]. split; [|split; [exact Hd|discriminate]].
  apply Bool.orb_true_iff in Ee. destruct Ee as [Ee|Ee]; apply Ascii.eqb_eq in Ee; auto.
Qed.
Lemma parse_inv : forall t x, parse_f64 t = Ok x -> exists l, literal_ok l /\ t = literal_text l.
Proof.
  intros t x H. unfold parse_f64 in H. destruct (take_sign_inv t) as [s [Es _]]. set (u := snd (take_sign t)) in *. clearbody u.
  destruct (special u); [discriminate|]. destruct (take_digits_inv u) as [Eu [Hi Hni]]. destruct (take_digits u) as [ip r]. cbn [fst snd] in *.
  assert (Q : exists fr, r = (match fr with None => [] | Some ds => "."%char :: digits_text ds end) ++
      snd (match r with a :: t => if Ascii.eqb a "." then take_digits t else ([], r) | [] => ([], []) end) /\
      digits_ok (match fr with Some ds => ds | None => [] end) /\
      fst (match r with a :: t => if Ascii.eqb a "." then take_digits t else ([], r) | [] => ([], []) end) = match fr with Some ds => ds | None => [] end).
  { destruct r as [|a r]; [exists None; repeat split; constructor|]. destruct (Ascii.eqb_spec a ".") as [->|_].
    - destruct (take_digits_inv r) as [Er [Hf _]]. exists (Some (fst (take_digits r))). split; [cbn [app]; f_equal; exact Er|]. split; [exact Hf|reflexivity].
    - exists None. repeat split. constructor. }
  destruct Q as [fr [Er [Hf Efp]]]. destruct (match r with a :: t => if Ascii.eqb a "." then take_digits t else ([], r) | [] => ([], []) end) as [fp tl]. cbn [fst snd] in *. subst fp.
  destruct (ip ++ match fr with Some ds => ds | None => [] end) as [|d0 ds0] eqn:E0; [discriminate|].
  destruct (parse_exp tl) as [z|] eqn:Ez; [|discriminate].
  assert (Hne : ip <> [] \/ exists d ds, fr = Some (d :: ds)).
  { destruct ip as [|i ip]; [|left; discriminate]. right. destruct fr as [[|d ds]|]; try discriminate E0. eauto. }
  destruct (parse_exp_inv tl z Ez) as [->|[e [s' [ds [-> [He [Hd Hdn]]]]]]].
  - exists (mkLit s ip fr None). split; [repeat split; assumption|]. unfold literal_text. cbn [l_sign l_int l_frac l_exp]. rewrite Es, Eu, Er. reflexivity.
  - exists (mkLit s ip fr (Some (e, s', ds))). split; [repeat split; assumption|]. unfold literal_text. cbn [l_sign l_int l_frac l_exp]. rewrite Es, Eu, Er. reflexivity.
Qed.

(** *** the ends of a literal are not blanks *)
Lemma solid_digits : forall ds l, digits_ok ds -> ds <> [] -> solid (digits_text ds ++ l).
Proof. intros ds l H Hne. destruct H as [|d ds Hd H]; [congruence|]. cbn. do 2 eexists. split; [reflexivity|]. apply digit_not_ws. exact Hd. Qed.
Lemma solid_digits_rev : forall ds l, digits_ok ds -> ds <> [] -> solid (rev (l ++ digits_text ds)).
Proof.
  intros ds l H Hne. rewrite rev_app_distr. unfold digits_text. rewrite <- map_rev. apply solid_digits; [apply Forall_rev; exact H|]. intros Q. apply Hne. rewrite <- (rev_involutive ds), Q. reflexivity.
Qed.
Lemma literal_solid : forall l, literal_ok l -> solid (literal_text l).
Proof.
  intros l [Hi [Hf [Hne He]]]. unfold literal_text. destruct (l_sign l); [|exists "+"%char; eexists; split; reflexivity|exists "-"%char; eexists; split; reflexivity]. cbn [sign_text app].
  destruct (l_int l) as [|d ds]; [|apply solid_digits; [exact Hi|discriminate]]. destruct Hne as [Hne|[d [ds Ef]]]; [congruence|]. rewrite Ef. exists "."%char. eexists. split; reflexivity.
Qed.
Lemma literal_solid_rev : forall l, literal_ok l -> solid (rev (literal_text l)).
Proof.
  intros l [Hi [Hf [Hne He]]]. unfold literal_text. destruct (l_exp l) as [[[e s] ds]|].
  - destruct He as [_ [Hd Hdn]]. rewrite !app_assoc. change (e :: sign_text s ++ digits_text ds) with (([e] ++ sign_text s) ++ digits_text ds). rewrite (app_assoc _ ([e] ++ sign_text s)). apply solid_digits_rev; assumption.
  - rewrite app_nil_r. destruct (l_frac l) as [[|d ds]|].
    + rewrite app_assoc, rev_app_distr. exists "."%char. eexists. split; reflexivity.
    + rewrite app_assoc. change ("."%char :: digits_text (d :: ds)) with (["."%char] ++ digits_text (d :: ds)). rewrite app_assoc. apply solid_digits_rev; [exact Hf|discriminate].
    + rewrite app_nil_r. apply solid_digits_rev; [exact Hi|]. destruct Hne as [Hne|[d [ds Ef]]]; [exact Hne|discriminate].
Qed.

Lemma trim_start_decomp : forall t, exists pre, Forall blank pre /\ t = pre ++ trim_start t.
Proof.
  intros t. induction t as [|a t [pre [H E]]]; [exists []; split; [constructor|reflexivity]|]. cbn [trim_start]. destruct (is_ws a) eqn:Ea.
  - exists (a :: pre). split; [constructor; [apply ws_blank, Ea|exact H]|]. cbn [app]. f_equal. exact E.
  - exists []. split; [constructor|reflexivity].
Qed.
Lemma trim_decomp : forall t, exists pre post, Forall blank pre /\ Forall blank post /\ t = pre ++ trim t ++ post.
Proof.
  intros t. destruct (trim_start_decomp t) as [pre [Hp Ep]]. destruct (trim_start_decomp (rev (trim_start t))) as [q [Hq Eq]].
  exists pre, (rev q). split; [exact Hp|]. split; [apply Forall_rev; exact Hq|]. unfold trim. rewrite <- rev_app_distr, <- Eq, rev_involutive. exact Ep.
Qed.

(** ** C68: which texts are accepted as numbers, and their values *)
Lemma P_C68_numbers :
  forall t x, parse_f64 (trim t) = Ok x <-> cell t x.
Proof.
  intros t x. split.
  - intros H. destruct (parse_inv _ _ H) as [l [Hl El]]. destruct (trim_decomp t) as [pre [post [Hp [Hq Et]]]]. exists pre, l, post. rewrite <- El. repeat (split; [assumption|]).
    rewrite El, (parse_literal l Hl) in H. inversion H. reflexivity.
  - intros [pre [l [post [Hp [Hq [Hl [-> ->]]]]]]]. rewrite trim_spec; [apply parse_literal; exact Hl|assumption|assumption|apply literal_solid; exact Hl|apply literal_solid_rev; exact Hl].
Qed.

(** *** rows *)
Lemma literal_chars : forall l c, literal_ok l -> In c (literal_text l) -> (exists d, (d < 10)%nat /\ c = digit_char d) \/ In c ["+"; "-"; "."; "e"; "E"]%char.
Proof.
  intros l c [Hi [Hf [_ He]]] Hin.
  assert (S : forall s, In c (sign_text s) -> In c ["+"; "-"; "."; "e"; "E"]%char) by (intros [| |] Hs; simpl in *; tauto).
  assert (D : forall ds, digits_ok ds -> In c (digits_text ds) -> exists d, (d < 10)%nat /\ c = digit_char d).
  { intros ds Hd Hs. apply in_map_iff in Hs. destruct Hs as [d [<- Hs]]. exists d. split; [|reflexivity]. unfold digits_ok in Hd. rewrite Forall_forall in Hd. apply Hd, Hs. }
  unfold literal_text in Hin. apply in_app_or in Hin. destruct Hin as [Hin|Hin]; [right; apply (S _ Hin)|]. apply in_app_or in Hin. destruct Hin as [Hin|Hin]; [left; apply (D _ Hi Hin)|].
  apply in_app_or in Hin. destruct Hin as [Hin|Hin].
  - destruct (l_frac l) as [ds|]; [|destruct Hin]. destruct Hin as [<-|Hin]; [right; simpl; tauto|left; apply (D _ Hf Hin)].
  - destruct (l_exp l) as [[[e s] ds]|]; [|destruct Hin]. destruct He as [He [Hd _]]. destruct Hin as [<-|Hin]; [right; destruct He as [-> | ->]; simpl; tauto|].
    apply in_app_or in Hin. destruct Hin as [Hin|Hin]; [right; apply (S _ Hin)|left; apply (D _ Hd Hin)].
Qed.
Lemma digit_char_not : forall d c, (d < 10)%nat -> digit_of c = None -> digit_char d <> c.
Proof. intros d c Hd Hc E. rewrite <- E, (digit_of_char d Hd) in Hc. discriminate. Qed.
Lemma literal_no : forall l c, literal_ok l -> digit_of c = None -> ~ In c ["+"; "-"; "."; "e"; "E"]%char -> ~ In c (literal_text l).
Proof. intros l c Hl Hc Hn Hin. destruct (literal_chars l c Hl Hin) as [[d [Hd E]]|E]; [|exact (Hn E)]. exact (digit_char_not d c Hd Hc (eq_sym E)). Qed.
Lemma cell_no_comma : forall t x, cell t x -> ~ In ","%char t.
Proof.
  intros t x [pre [l [post [Hp [Hq [Hl [-> _]]]]]]] Hin. rewrite Forall_forall in Hp, Hq.
  assert (B : ~ blank ","%char) by (intros B; repeat (destruct B as [B|B]; [discriminate|]); destruct B).
  apply in_app_or in Hin. destruct Hin as [Hin|Hin]; [exact (B (Hp _ Hin))|]. apply in_app_or in Hin. destruct Hin as [Hin|Hin]; [|exact (B (Hq _ Hin))].
  revert Hin. apply literal_no; [exact Hl|reflexivity|]. intros Q. repeat (destruct Q as [Q|Q]; [discriminate|]). destruct Q.
Qed.
Lemma map_res_ok : forall A B (f : A -> res B) l bs, Forall2 (fun a b => f a = Ok b) l bs -> map_res f l = Ok bs.
Proof. intros A B f l bs H. induction H as [|a b l bs Hab H IH]; [reflexivity|]. cbn [map_res]. rewrite Hab. cbn [bind]. rewrite IH. reflexivity. Qed.
Lemma map_res_inv : forall A B (f : A -> res B) l bs, map_res f l = Ok bs -> Forall2 (fun a b => f a = Ok b) l bs.
Proof.
  intros A B f l. induction l as [|a l IH]; intros bs H; cbn [map_res] in H; [inversion H; constructor|]. destruct (f a) as [b|] eqn:Ea; [|discriminate]. cbn [bind] in H.
  destruct (map_res f l) as [r|] eqn:Er; [|discriminate]. cbn [bind] in H. inversion H; subst. constructor; [exact Ea|]. apply IH. reflexivity.
Qed.
Lemma Forall2_in_l : forall A B (P : A -> B -> Prop) l m a, Forall2 P l m -> In a l -> exists b, In b m /\ P a b.
Proof. intros A B P l m a H. induction H as [|x y l m Hxy H IH]; intros Hin; [destruct Hin|]. destruct Hin as [<-|Hin]; [exists y; split; [left; reflexivity|exact Hxy]|]. destruct (IH Hin) as [b [Hb HP]]. exists b. split; [right; exact Hb|exact HP]. Qed.
Lemma parse_row_ok : forall ts xs, ts <> [] -> Forall2 cell ts xs -> parse_row (joined [","%char] ts) = Ok xs.
Proof.
  intros ts xs Hne H. unfold parse_row. rewrite split_joined; [|exact Hne|].
  - apply map_res_ok. clear Hne. induction H as [|t x ts xs Hc H IH]; constructor; [|exact IH]. apply P_C68_numbers. exact Hc.
  - intros p Hp. destruct (Forall2_in_l _ _ _ _ _ p H Hp) as [x [_ Hx]]. exact (cell_no_comma p x Hx).
Qed.

Lemma rows_ok : forall table values, (forall r, In r table -> r <> []) -> Forall2 (Forall2 cell) table values ->
  map_res parse_row (map (joined [","%char]) table) = Ok values.
Proof.
  intros table values Hne H. apply map_res_ok. induction H as [|ts xs table values Hr H IH]; [constructor|]. cbn [map]. constructor.
  - apply parse_row_ok; [apply Hne; left; reflexivity|exact Hr].
  - apply IH. intros r Hr'. apply Hne. right. exact Hr'.
Qed.
Lemma Forall2_len : forall A B (P : A -> B -> Prop) l m, Forall2 P l m -> length l = length m.
Proof. intros A B P l m H. induction H; cbn [length]; congruence. Qed.

(** ** C68: a CSV file with a header row holds exactly the table that was written *)
Lemma P_C68_csv_with_header :
  forall (header : list text) (table : list (list text)) (values : list (list R)) (content : text),
  header <> [] -> (forall nm, In nm header -> ~ In ","%char nm) ->
  (forall r, In r table -> length r = length header) -> Forall2 (Forall2 cell) table values ->
  let lines := map (joined [","%char]) (header :: table) in
  Forall line_ok lines -> file_of lines content ->
  exists s, read_csv content true = Ok s /\ shape s = (length table, length header) /\
    map feat_name (s_features s) = map string_of_list_ascii header /\
    forall i j, (i < length table)%nat -> (j < length header)%nat ->
      exists f, nth_error (s_features s) j = Some f /\ feat_index f i = Ok (nth j (nth i values []) 0).
Proof.
  intros header table values content Hh Hc Hlen HV lines Hok Hfile. unfold read_csv. rewrite (lines_file _ _ Hfile Hok). unfold lines. cbn [map].
  assert (Hr : forall r, In r table -> r <> []) by (intros r Hr ->; specialize (Hlen [] Hr); destruct header; [congruence|discriminate]).
  rewrite (rows_ok table values Hr HV). cbn [bind]. rewrite split_joined by assumption.
  assert (HL : length table = length values) by (eapply Forall2_len; exact HV).
  assert (HR : forall r, In r values -> length r = length header).
  { intros r Hin. assert (F : Forall2 (fun xs ts => Forall2 cell ts xs) values table) by (clear -HV; induction HV; constructor; assumption).
    destruct (Forall2_in_l _ _ _ _ _ r F Hin) as [ts [Hts Q]]. rewrite <- (Hlen ts Hts). symmetry. eapply Forall2_len. exact Q. }
  destruct (P_C49_csv_accepts (Some (map string_of_list_ascii header)) values (length header) HR) as [s Es]; [rewrite map_length; reflexivity|].
  exists s. split; [exact Es|]. destruct (P_C49_csv_cells (Some (map string_of_list_ascii header)) values s (length header) HR (map_length _ _) Es) as [Q1 [Q2 Q3]].
  rewrite HL. split; [exact Q1|]. split; [exact Q2|exact Q3].
Qed.

(** ** C68: a CSV file without a header row: the columns are named "Feat. [1]", "Feat. [2]", ... *)
Lemma P_C68_csv_without_header :
  forall (table : list (list text)) (values : list (list R)) (content : text) (m : nat),
  (0 < m)%nat -> table <> [] -> (forall r, In r table -> length r = m) -> Forall2 (Forall2 cell) table values ->
  let lines := map (joined [","%char]) table in
  Forall line_ok lines -> file_of lines content ->
  exists s, read_csv content false = Ok s /\ shape s = (length table, m) /\
    map feat_name (s_features s) = map default_name (seq 1 m) /\
    forall i j, (i < length table)%nat -> (j < m)%nat ->
      exists f, nth_error (s_features s) j = Some f /\ feat_index f i = Ok (nth j (nth i values []) 0).
Proof.
  intros table values content m Hm Hne Hlen HV lines Hok Hfile. unfold read_csv. rewrite (lines_file _ _ Hfile Hok). unfold lines.
  assert (Hr : forall r, In r table -> r <> []) by (intros r Hr ->; specialize (Hlen [] Hr); simpl in Hlen; lia).
  rewrite (rows_ok table values Hr HV). cbn [bind].
  assert (HL : length table = length values) by (eapply Forall2_len; exact HV).
  assert (HR : forall r, In r values -> length r = m).
  { intros r Hin. assert (F : Forall2 (fun xs ts => Forall2 cell ts xs) values table) by (clear -HV; induction HV; constructor; assumption).
    destruct (Forall2_in_l _ _ _ _ _ r F Hin) as [ts [Hts Q]]. rewrite <- (Hlen ts Hts). symmetry. eapply Forall2_len. exact Q. }
  assert (Hv : values <> []) by (intros ->; destruct table; [congruence|discriminate]).
  destruct (P_C49_csv_accepts None values m HR Hv) as [s Es].
  exists s. split; [exact Es|]. destruct (P_C49_csv_cells None values s m HR Hv Es) as [Q1 [Q2 Q3]].
  rewrite HL. split; [exact Q1|]. split; [exact Q2|exact Q3].
Qed.

(** ** C68: a CSV file with an entry that is not a decimal number is rejected, in particular one with an empty line *)
Lemma map_res_bad : forall A B (f : A -> res B) l a, In a l -> (forall b, f a <> Ok b) -> exists q, map_res f l = Panic q.
Proof.
  intros A B f l a Hin Hbad. destruct (map_res f l) as [bs|q] eqn:E; [|eauto]. apply map_res_inv in E. destruct (Forall2_in_l _ _ _ _ _ a E Hin) as [b [_ Q]]. destruct (Hbad b Q).
Qed.
Lemma P_C68_csv_rejects :
  forall (has_header : bool) (header : text) (lines : list (list text)) (content : text) (row : list text) (t : text),
  (forall r, In r lines -> r <> [] /\ forall p, In p r -> ~ In ","%char p) ->
  let all := (if has_header then [header] else []) ++ map (joined [","%char]) lines in
  Forall line_ok all -> file_of all content ->
  In row lines -> In t row -> (forall x, ~ cell t x) ->
  exists q, read_csv content has_header = Panic q.
Proof.
  intros hh header lines content row t Hl all Hok Hfile Hrow Ht Hbad. unfold read_csv. rewrite (lines_file _ _ Hfile Hok). unfold all.
  assert (B : exists q, map_res parse_row (map (joined [","%char]) lines) = Panic q).
  { apply (map_res_bad _ _ _ _ (joined [","%char] row)); [apply in_map, Hrow|]. intros xs Q. unfold parse_row in Q. destruct (Hl row Hrow) as [H1 H2]. rewrite split_joined in Q by assumption.
    apply map_res_inv in Q. destruct (Forall2_in_l _ _ _ _ _ t Q Ht) as [x [_ Ex]]. apply P_C68_numbers in Ex. exact (Hbad x Ex). }
  destruct B as [q B]. exists q. destruct hh; cbn [app]; rewrite B; reflexivity.
Qed.

(** *** SVMLight words *)
Lemma sw_blank : forall b t, Forall blank b -> split_whitespace (b ++ t) = split_whitespace t.
Proof. intros b t H. induction H as [|c b Hc H IH]; [reflexivity|]. unfold split_whitespace in *. cbn [app split_by]. rewrite (blank_ws c Hc). cbn [filter is_empty_text negb]. exact IH. Qed.
Lemma sw_word : forall w t, w <> [] -> (forall c, In c w -> ~ blank c) -> t = [] \/ starts_blank t -> split_whitespace (w ++ t) = w :: split_whitespace t.
Proof.
  intros w t Hne Hw Ht. assert (N : forall c, In c w -> is_ws c = false).
  { intros c Hc. destruct (is_ws c) eqn:E; [|reflexivity]. destruct (Hw c Hc (ws_blank c E)). }
  assert (K : forall r, filter (fun x : text => negb (is_empty_text x)) (w :: r) = w :: filter (fun x : text => negb (is_empty_text x)) r) by (intros r; cbn [filter]; destruct w; [congruence|reflexivity]).
  unfold split_whitespace. destruct Ht as [->|[c [r [-> Hc]]]].
  - rewrite app_nil_r, split_none by exact N. rewrite K. reflexivity.
  - rewrite split_sep; [|exact N|apply blank_ws, Hc]. rewrite K. cbn [split_by]. rewrite (blank_ws c Hc). reflexivity.
Qed.
Lemma spaced_words : forall ws t, spaced ws t -> split_whitespace t = ws.
Proof.
  intros ws t H. induction H as [b Hb|b w ws t Hb Hne Hw Ht H IH].
  - rewrite <- (app_nil_r b), sw_blank by exact Hb. reflexivity.
  - rewrite sw_blank by exact Hb. rewrite sw_word by assumption. rewrite IH. reflexivity.
Qed.

Lemma trim_solid : forall l, solid l -> solid (rev l) -> trim l = l.
Proof. intros l H1 H2. rewrite <- (app_nil_r l) at 1. exact (trim_spec [] l [] (Forall_nil _) (Forall_nil _) H1 H2). Qed.
Lemma parse_usize_ok : forall ds, digits_ok ds -> ds <> [] -> (Z.of_nat (digits_number ds) < 2 ^ 64)%Z -> parse_usize (trim (digits_text ds)) = Ok (digits_number ds).
Proof.
  intros ds Hd Hne Hz. rewrite trim_solid.
  2:{ rewrite <- (app_nil_r (digits_text ds)). apply solid_digits; assumption. }
  2:{ apply (solid_digits_rev ds [] Hd Hne). }
  unfold parse_usize. assert (U : unsigned (digits_text ds)) by (rewrite <- (app_nil_r (digits_text ds)); apply unsigned_digits; assumption).
  replace (match digits_text ds with a :: t => if Ascii.eqb a "+" then t else digits_text ds | [] => [] end) with (digits_text ds).
  2:{ destruct (digits_text ds) as [|a t]; [reflexivity|]. destruct U as [_ U]. rewrite U. reflexivity. }
  rewrite <- (app_nil_r (digits_text ds)), take_digits_ok by (try exact I; assumption). destruct ds as [|d ds]; [congruence|].
  change number_of with digits_number. rewrite (proj2 (Z.ltb_lt _ _) Hz). reflexivity.
Qed.
Lemma pair_word_ok : forall w p, pair_word w p -> index_and_feature w = Ok p.
Proof.
  intros w [i x] [ds [l [Hd [Hne [Hl [Hz [-> [Ei Ex]]]]]]]]. cbn [fst snd] in Ei, Ex. subst. unfold index_and_feature, pair_text. rewrite split_sep; [| |reflexivity].
  - rewrite split_none.
    + rewrite parse_usize_ok by assumption. cbn [bind]. rewrite trim_solid by (try apply literal_solid; try apply literal_solid_rev; assumption). rewrite parse_literal by exact Hl. reflexivity.
    + intros c Hc. apply Ascii.eqb_neq. intros <-. revert Hc. apply literal_no; [exact Hl|reflexivity|]. intros Q. repeat (destruct Q as [Q|Q]; [discriminate|]). destruct Q.
  - intros c Hc. apply Ascii.eqb_neq. intros <-. apply in_map_iff in Hc. destruct Hc as [d [E Hin]]. unfold digits_ok in Hd. rewrite Forall_forall in Hd. exact (digit_char_not d ":" (Hd d Hin) eq_refl E).
Qed.
Lemma svm_line_ok : forall t line, svm_line_text t line -> parse_svm_line t = Ok line.
Proof.
  intros t [y xs] [l [ws [Hl [Ey [HF Hs]]]]]. cbn [fst snd] in Ey, HF. unfold parse_svm_line. rewrite (spaced_words _ _ Hs).
  rewrite trim_solid by (try apply literal_solid; try apply literal_solid_rev; assumption). rewrite parse_literal by exact Hl. cbn [bind].
  rewrite (map_res_ok _ _ index_and_feature ws xs); [rewrite Ey; reflexivity|]. clear -HF. induction HF; constructor; [apply pair_word_ok; assumption|assumption].
Qed.

(** ** C68: an SVMLight file holds exactly the labels and the entries that were written *)
Lemma P_C68_svmlight :
  forall (texts : list text) (lines : list (R * list (nat * R))) (content : text),
  Forall2 svm_line_text texts lines -> (forall l, In l lines -> NoDup (map fst (snd l))) ->
  Forall line_ok texts -> file_of texts content ->
  exists s, read_svmlight content = Ok s /\ fst (shape s) = length texts /\ s_target s = map fst lines /\
  forall j, match by_name s (default_name (S j)) with
            | Ok f => (exists l x, In l lines /\ In (j, x) (snd l)) /\
                forall i, (i < length texts)%nat ->
                (forall x, In (j, x) (snd (nth i lines (0, []))) -> feat_index f i = Ok x) /\
                ((forall x, ~ In (j, x) (snd (nth i lines (0, [])))) -> feat_index f i = Ok 0)
            | Panic _ => forall l x, In l lines -> ~ In (j, x) (snd l)
            end.
Proof.
  intros texts lines content HF Hnd Hok Hfile. unfold read_svmlight. rewrite (lines_file _ _ Hfile Hok).
  assert (HL : length texts = length lines) by (eapply Forall2_len; exact HF).
  rewrite (map_res_ok _ _ parse_svm_line texts lines); [|clear -HF; induction HF; constructor; [apply svm_line_ok; assumption|assumption]]. cbn [bind].
  eexists. split; [reflexivity|]. rewrite HL. exact (P_C49_svmlight_cells lines Hnd).
Qed.

(** ** C68: the reader: a path ending in ".csv" is read as CSV and the column named by target_feature becomes the target,
    every other path as SVMLight; without a file name, or without a target for a CSV file, it panics; a missing file is
    reported as an error *)

Lemma split_app_last : forall p l m, split_by p (l ++ m) = removelast (split_by p l) ++ (match split_by p m with q :: qs => (last (split_by p l) [] ++ q) :: qs | [] => [] end).
Proof.
  intros p l m. induction l as [|a l IH].
  - cbn [app split_by removelast last]. destruct (split_by p m); reflexivity.
  - cbn [app split_by]. destruct (p a).
    + rewrite IH. destruct (split_by p l) eqn:El; [exfalso; exact (split_nonempty _ _ El)|]. reflexivity.
    + rewrite IH. destruct (split_by p l) as [|q qs] eqn:El; [exfalso; exact (split_nonempty _ _ El)|]. destruct qs; [cbn; destruct (split_by p m); [exfalso; eapply split_nonempty; eassumption|reflexivity]|reflexivity].
Qed.

Lemma last_piece_nonempty : forall p l, l <> [] -> (forall r c, l = r ++ [c] -> p c = false) -> last (split_by p l) [] <> [].
Proof.
  intros p l. destruct l as [|x0 l0] eqn:El0; [congruence|]. rewrite <- El0. clear x0 l0 El0. intros Hne H. destruct (exists_last Hne) as [r [c E]]. specialize (H r c E). subst l.
  rewrite split_app_last. cbn [split_by]. rewrite H. rewrite last_last. intros Q. apply app_eq_nil in Q. destruct Q as [_ Q]. discriminate.
Qed.
Lemma extension_csv : forall p, csv_path p -> extension p = Some ["c"; "s"; "v"]%char.
Proof.
  intros p [stem [-> [Hne Hs]]]. unfold extension. change (list_ascii_of_string ".csv") with ["."; "c"; "s"; "v"]%char.
  rewrite split_app_last. change (split_by (Ascii.eqb "/") ["."; "c"; "s"; "v"]%char) with [["."; "c"; "s"; "v"]%char]. cbn iota. rewrite last_last.
  pose proof (last_piece_nonempty (Ascii.eqb "/") stem Hne) as Hu. specialize (Hu ltac:(intros r c E; apply Ascii.eqb_neq; intros <-; exact (Hs r E))).
  set (u := last (split_by (Ascii.eqb "/") stem) []) in *. clearbody u. rewrite split_app_last. change (split_by (Ascii.eqb ".") ["."; "c"; "s"; "v"]%char) with [[]; ["c"; "s"; "v"]]%char.
  cbn iota. rewrite app_nil_r.
  assert (Eu : split_by (Ascii.eqb ".") u = removelast (split_by (Ascii.eqb ".") u) ++ [last (split_by (Ascii.eqb ".") u) []]) by (apply app_removelast_last, split_nonempty).
  assert (Nu : split_by (Ascii.eqb ".") u <> [[]]).
  { intros Q. destruct u as [|a u]; [congruence|]. cbn [split_by] in Q. destruct (Ascii.eqb "." a); [destruct (split_by (Ascii.eqb ".") u) eqn:E; [exact (split_nonempty _ _ E)|discriminate]|]. destruct (split_by (Ascii.eqb ".") u); discriminate. }
  replace (removelast (split_by (Ascii.eqb ".") u) ++ [last (split_by (Ascii.eqb ".") u) []; ["c"; "s"; "v"]%char]) with (split_by (Ascii.eqb ".") u ++ [["c"; "s"; "v"]%char]) by (rewrite Eu at 1; rewrite <- app_assoc; reflexivity).
  clear Eu. pose proof (last_last (split_by (Ascii.eqb ".") u) ["c"; "s"; "v"]%char []) as Q. pose proof (split_nonempty (Ascii.eqb ".") u) as Nn. set (w := split_by (Ascii.eqb ".") u) in *. clearbody w.
  destruct w as [|p1 [|p2 [|p3 w]]]; cbn [app] in *; [congruence|destruct p1; [congruence|reflexivity]|destruct p1; [destruct p2; reflexivity|reflexivity]|].
  destruct p1; [|rewrite Q; reflexivity]. destruct p2; [|rewrite Q; reflexivity]. destruct p3; [|rewrite Q; reflexivity]. destruct (w ++ [["c"; "s"; "v"]%char]) eqn:Ew; [destruct w; discriminate|]. rewrite Q. reflexivity.
Qed.

(** ** C49: set_target panics exactly when no column has that name *)
Lemma P_C49_set_target_accepts :
  forall s nm, made s -> ((exists s', set_target s nm = Ok s') <-> exists f, In f (s_features s) /\ feat_name f = nm).
Proof.
  intros s nm M. split.
  - intros [s' E]. destruct (P_C49_set_target s nm s' M E) as [b [c [a [Ef [En _]]]]]. exists c. split; [rewrite Ef; apply in_or_app; right; left; reflexivity|exact En].
  - intros [f [Hin Hn]]. pose proof (made_good s M) as G. unfold set_target.
    assert (Q : forall fs, In f fs -> exists k, position (fun f => String.eqb (feat_name f) nm) fs = Some k).
    { clear -Hn. induction fs as [|g fs IH]; intros Hin; [destruct Hin|]. cbn [position]. destruct (String.eqb_spec (feat_name g) nm); [eauto|]. destruct Hin as [<-|Hin]; [congruence|]. destruct (IH Hin) as [k ->]. eauto. }
    destruct (Q _ Hin) as [k Ek]. rewrite Ek. destruct (position_spec _ _ _ Ek) as [Hk _].
    assert (Hc : col_ok (s_n_sample s) (nth k (s_features s) (new_dense String.EmptyString))) by (pose proof (good_cols s G) as F; rewrite Forall_forall in F; apply F, nth_In, Hk).
    rewrite (into_target_ok _ _ Hc). cbn [bind]. destruct (Nat.eqb_spec (s_n_feature s) 0) as [E0|_]; [rewrite (good_nf s G) in E0; lia|]. eexists. reflexivity.
Qed.

Lemma P_C68_reader_csv :
  forall (fs : text -> option text) (path : text) (header : list text) (table : list (list text)) (values : list (list R)) (content : text) (k : nat),
  csv_path path -> fs path = Some content ->
  NoDup header -> (forall nm, In nm header -> ~ In ","%char nm) ->
  (forall r, In r table -> length r = length header) -> Forall2 (Forall2 cell) table values ->
  let lines := map (joined [","%char]) (header :: table) in
  Forall line_ok lines -> file_of lines content -> (k < length header)%nat ->
  let target := string_of_list_ascii (nth k header []) in
  exists s, read fs (rd_target_feature (rd_has_header (rd_set_file reader_default path) true) target) = Ok (Some s) /\
    shape s = (length table, (length header - 1)%nat) /\
    length (s_target s) = length table /\
    (forall i, (i < length table)%nat -> nth i (s_target s) 0 = nth k (nth i values []) 0) /\
    forall i j, (i < length table)%nat -> (j < length header)%nat -> j <> k ->
      exists f, by_name s (string_of_list_ascii (nth j header [])) = Ok f /\ feat_index f i = Ok (nth j (nth i values []) 0).
Proof.
  intros fs path header table values content k Hp Hfs Hnd Hc Hlen HV lines Hok Hfile Hk target.
  assert (Hne : header <> []) by (intros ->; simpl in Hk; lia).
  destruct (P_C68_csv_with_header header table values content Hne Hc Hlen HV Hok Hfile) as [s [Es [Hsh [Hnm Hcell]]]].
  assert (Hread : forall t, read fs (rd_target_feature (rd_has_header (rd_set_file reader_default path) true) t) = let* s := set_target s t in Ok (Some s)).
  { intros t. unfold read. cbn [rd_file rd_target_feature rd_has_header rd_set_file rd_target rd_header reader_default]. rewrite (extension_csv path Hp).
    destruct (list_eq_dec ascii_dec ["c"; "s"; "v"]%char ["c"; "s"; "v"]%char) as [_|Q]; [|congruence]. rewrite Hfs, Es. reflexivity. }
  assert (HL : length table = length values) by (eapply Forall2_len; exact HV).
  assert (HR : forall r, In r values -> length r = length header).
  { intros r Hin. assert (F : Forall2 (fun xs ts => Forall2 cell ts xs) values table) by (clear -HV; induction HV; constructor; assumption).
    destruct (Forall2_in_l _ _ _ _ _ r F Hin) as [ts [Hts Q]]. rewrite <- (Hlen ts Hts). symmetry. eapply Forall2_len. exact Q. }
  assert (M : made s).
  { unfold read_csv in Es. rewrite (lines_file _ _ Hfile Hok) in Es. unfold lines in Es. cbn [map] in Es. rewrite (rows_ok table values) in Es; [|intros r Hr ->; specialize (Hlen [] Hr); simpl in Hlen; lia|exact HV]. cbn [bind] in Es. rewrite split_joined in Es by assumption.
    apply (made_csv (Some (map string_of_list_ascii header)) values s); [intros r Hr; rewrite map_length; apply HR, Hr|discriminate|exact Es]. }
  assert (Nn : NoDup (map string_of_list_ascii header)).
  { apply FinFun.Injective_map_NoDup; [|exact Hnd]. intros a b E. rewrite <- (list_ascii_of_string_of_list_ascii a), E, list_ascii_of_string_of_list_ascii. reflexivity. }
  assert (Hf : length (s_features s) = length header) by (rewrite <- (map_length feat_name), Hnm, map_length; reflexivity).
  assert (Hname : forall j, (j < length header)%nat -> forall f, nth_error (s_features s) j = Some f -> feat_name f = string_of_list_ascii (nth j header [])).
  { intros j Hj f E. pose proof (map_nth_error feat_name _ _ E) as Q. rewrite Hnm in Q. rewrite (map_nth_error _ _ _ (nth_error_nth' header [] Hj)) in Q. inversion Q. reflexivity. }
  assert (Hnf : length (s_features s) = length header) by exact Hf.
  assert (Epk : exists fk, nth_error (s_features s) k = Some fk).
  { destruct (nth_error (s_features s) k) as [fk|] eqn:E; [eauto|]. apply nth_error_None in E. lia. }
  destruct Epk as [fk Efk].
  destruct (proj2 (P_C49_set_target_accepts s target M)) as [s' Es']; [exists fk; split; [eapply nth_error_In; exact Efk|apply (Hname k Hk fk Efk)]|].
  exists s'. split; [rewrite Hread, Es'; reflexivity|].
  destruct (P_C49_set_target s target s' M Es') as [before [c [after [Ef [Enm [Hbef [Ef' [Hsh' [Ht Hc']]]]]]]]].
  rewrite Hsh in Hsh', Ht, Hc'. cbn [fst snd] in Hsh', Ht, Hc'. split; [exact Hsh'|]. split; [exact Ht|].
  assert (Nf : NoDup (map feat_name (s_features s))) by (rewrite Hnm; exact Nn).
  assert (Ekb : length before = k).
  { assert (Eb : nth_error (map feat_name (s_features s)) (length before) = Some target).
    { rewrite Ef, map_app, nth_error_app2 by (rewrite map_length; lia). rewrite map_length, Nat.sub_diag. cbn. rewrite Enm. reflexivity. }
    assert (Ek : nth_error (map feat_name (s_features s)) k = Some target) by (rewrite (map_nth_error feat_name _ _ Efk), (Hname k Hk fk Efk); reflexivity).
    apply (proj1 (NoDup_nth_error _) Nf); [|congruence]. apply nth_error_Some. congruence. }
  split.
  - intros i Hi. destruct (Hcell i k Hi Hk) as [f [E1 E2]]. rewrite Ef, nth_error_app2 in E1 by lia. rewrite Ekb, Nat.sub_diag in E1. cbn in E1. inversion E1; subst f. rewrite (Hc' i Hi) in E2. inversion E2. reflexivity.
  - intros i j Hi Hj Hjk. destruct (Hcell i j Hi Hj) as [f [E1 E2]]. exists f. split; [|exact E2].
    assert (Hin : In f (s_features s')).
    { rewrite Ef'. rewrite Ef in E1. apply in_or_app. destruct (Nat.lt_ge_cases j (length before)).
      - left. rewrite nth_error_app1 in E1 by assumption. eapply nth_error_In. exact E1.
      - right. rewrite nth_error_app2 in E1 by assumption. destruct (j - length before)%nat eqn:Ed; [lia|]. cbn in E1. eapply nth_error_In. exact E1. }
    rewrite <- (Hname j Hj f E1). destruct (P_C49_sample_bookkeeping s' (made_set_target s target s' M Es')) as [_ [_ [Hb _]]]. apply Hb; [|exact Hin].
    rewrite Ef', map_app. rewrite Ef, map_app in Nf. cbn [map] in Nf. apply NoDup_remove_1 in Nf. exact Nf.
Qed.

Lemma last_split : forall p l, split_by p l = [l] \/
  exists d c, p c = true /\ l = d ++ c :: last (split_by p l) [] /\ split_by p l = split_by p d ++ [last (split_by p l) []].
Proof.
  intros p l. induction l as [|a l IH]; [left; reflexivity|]. cbn [split_by]. destruct (p a) eqn:Ea.
  - right. destruct IH as [E|[d [c [Hc [El Es]]]]].
    + exists [], a. rewrite E. cbn. auto.
    + exists (a :: d), c. split; [exact Hc|]. destruct (split_by p l) as [|q qs] eqn:Eq; [exfalso; exact (split_nonempty _ _ Eq)|].
      change (last ([] :: q :: qs) []) with (last (q :: qs) []). split; [cbn [app]; f_equal; exact El|]. cbn [split_by]. rewrite Ea. cbn [app]. f_equal. exact Es.
  - destruct IH as [E|[d [c [Hc [El Es]]]]].
    + left. rewrite E. reflexivity.
    + right. exists (a :: d), c. split; [exact Hc|]. cbn [split_by]. rewrite Ea. destruct (split_by p d) as [|q0 qs0] eqn:Ed; [exfalso; exact (split_nonempty _ _ Ed)|].
      destruct (split_by p l) as [|q qs] eqn:Eq; [exfalso; exact (split_nonempty _ _ Eq)|]. cbn [app] in Es. injection Es as E1 E2. subst q0.
      destruct qs as [|q' qs]; [destruct qs0; discriminate|]. change (last ((a :: q) :: q' :: qs) []) with (last (q :: q' :: qs) []).
      split; [cbn [app]; f_equal; exact El|]. cbn [app]. f_equal. exact E2.
Qed.
Lemma extension_csv_only : forall p, extension p = Some ["c"; "s"; "v"]%char -> csv_path p.
Proof.
  intros p E. unfold extension in E. set (name := last (split_by (Ascii.eqb "/") p) []) in *.
  assert (Elast : last (split_by (Ascii.eqb ".") name) [] = ["c"; "s"; "v"]%char).
  { destruct (split_by (Ascii.eqb ".") name) as [|p1 [|p2 [|p3 [|p4 w]]]]; try discriminate; destruct p1; try destruct p2; try destruct p3; try discriminate; inversion E; reflexivity. }
  destruct (last_split (Ascii.eqb ".") name) as [Q|[d [c [Hc [En Es]]]]]; [rewrite Q in E; clear -E; destruct name; discriminate|]. rewrite Elast in En, Es. apply Ascii.eqb_eq in Hc. subst c.
  assert (Hd : d <> []) by (intros ->; rewrite Es in E; discriminate).
  assert (Nn : forall r, name <> r ++ ["/"]%char /\ ~ In "/"%char name).
  { assert (G : forall l, ~ In "/"%char (last (split_by (Ascii.eqb "/") l) [])).
    { clear. induction l as [|a l IH]; [auto|]. cbn [split_by]. destruct (Ascii.eqb_spec "/" a).
      - destruct (split_by (Ascii.eqb "/") l) eqn:El; [exfalso; exact (split_nonempty _ _ El)|]. exact IH.
      - destruct (split_by (Ascii.eqb "/") l) as [|q qs] eqn:El; [exfalso; exact (split_nonempty _ _ El)|]. destruct qs; [|exact IH]. cbn in *. intros [Q|Q]; [congruence|exact (IH Q)]. }
    intros r. split; [|apply G]. intros Q. apply (G p). fold name. rewrite Q. apply in_or_app. right. left. reflexivity. }
  assert (Nd : ~ In "/"%char d) by (intros Q; apply (proj2 (Nn [])); rewrite En; apply in_or_app; left; exact Q).
  destruct (last_split (Ascii.eqb "/") p) as [Q|[d0 [c0 [Hc0 [Ep _]]]]].
  - assert (Epn : p = name) by (unfold name; rewrite Q; reflexivity). exists d. split; [rewrite Epn, En; reflexivity|]. split; [exact Hd|]. intros r Er. apply Nd. rewrite Er. apply in_or_app. right. left. reflexivity.
  - fold name in Ep. exists (d0 ++ c0 :: d). split; [rewrite Ep at 1; rewrite En; rewrite <- app_assoc; reflexivity|]. split; [destruct d0; discriminate|].
    intros r Er. destruct (exists_last Hd) as [d' [x Ed]]. rewrite Ed in Er. change (d0 ++ c0 :: d' ++ [x]) with (d0 ++ (c0 :: d') ++ [x]) in Er. rewrite app_assoc in Er. apply app_inj_tail in Er. destruct Er as [_ ->].
    apply Nd. rewrite Ed. apply in_or_app. right. left. reflexivity.
Qed.

(** any other path is read as SVMLight text; the header flag and the target name play no role *)
Lemma P_C68_reader_other :
  forall (fs : text -> option text) (r : reader),
  match rd_file r with
  | None => exists q, read fs r = Panic q
  | Some path =>
      (~ csv_path path -> read fs r = match fs path with None => Ok None | Some content => let* s := read_svmlight content in Ok (Some s) end) /\
      (csv_path path -> rd_target r = None -> exists q, read fs r = Panic q) /\
      (fs path = None -> rd_target r <> None -> read fs r = Ok None)
  end.
Proof.
  intros fs r. unfold read. destruct (rd_file r) as [path|]; [|eexists; reflexivity]. split; [|split].
  - intros Hn. destruct (extension path) as [e|] eqn:Ee; [|reflexivity]. destruct (list_eq_dec ascii_dec e ["c"; "s"; "v"]%char) as [->|_]; [|reflexivity]. destruct (Hn (extension_csv_only path Ee)).
  - intros Hp Ht. rewrite (extension_csv path Hp). destruct (list_eq_dec _ _ _) as [_|Q]; [|congruence]. rewrite Ht. eexists. reflexivity.
  - intros Hfs Ht. rewrite Hfs. destruct (rd_target r); [|congruence]. destruct (match extension path with Some e => _ | None => _ end); reflexivity.
Qed.

(** ** C68: a concrete file: "x,class / 1.5, -1 / .25e1,+1" *)
Example C68_ex :
  let header := [["x"%char]; list_ascii_of_string "class"] in
  let table := [[list_ascii_of_string "1.5"; list_ascii_of_string " -1"]; [list_ascii_of_string ".25e1"; list_ascii_of_string "+1 "]] in
  let values := [[3 / 2; -1]; [5 / 2; 1]] in
  Forall2 (Forall2 cell) table values /\ Forall line_ok (map (joined [","%char]) (header :: table)) /\
  exists content, file_of (map (joined [","%char]) (header :: table)) content.
Proof.
  cbv zeta. split; [|split].
  - assert (B : Forall blank [" "%char]) by (constructor; [do 5 right; left; reflexivity|constructor]).
    assert (D : forall ds, forallb (fun d => Nat.ltb d 10) ds = true -> digits_ok ds) by (intros ds H; apply Forall_forall; intros d Hd; rewrite forallb_forall in H; apply Nat.ltb_lt, H, Hd).
    repeat constructor; red.
    + exists [], (mkLit NoSign [1%nat] (Some [5%nat]) None), []. split; [constructor|]. split; [constructor|]. split; [split; [apply D; reflexivity|split; [apply D; reflexivity|split; [left; discriminate|exact I]]]|]. split; [reflexivity|]. unfold literal_value. simpl. field.
    + exists [" "%char], (mkLit Minus [1%nat] None None), []. split; [exact B|]. split; [constructor|]. split; [split; [apply D; reflexivity|split; [apply D; reflexivity|split; [left; discriminate|exact I]]]|]. split; [reflexivity|]. unfold literal_value. simpl. field.
    + exists [], (mkLit NoSign [] (Some [2%nat; 5%nat]) (Some ("e"%char, NoSign, [1%nat]))), []. split; [constructor|]. split; [constructor|]. split; [split; [apply D; reflexivity|split; [apply D; reflexivity|split; [right; exists 2%nat, [5%nat]; reflexivity|split; [left; reflexivity|split; [apply D; reflexivity|discriminate]]]]]|]. split; [reflexivity|]. unfold literal_value. simpl. field_simplify. lra.
    + exists [], (mkLit Plus [1%nat] None None), [" "%char]. split; [constructor|]. split; [exact B|]. split; [split; [apply D; reflexivity|split; [apply D; reflexivity|split; [left; discriminate|exact I]]]|]. split; [reflexivity|]. unfold literal_value. simpl. field.
  - assert (K : forall l, (forall c, In c l -> c <> LF) -> last l " "%char <> CR -> line_ok l).
    { intros l H1 H2. split; [intros Q; exact (H1 _ Q eq_refl)|]. intros l' ->. apply H2. apply last_last. }
    repeat constructor; apply K; try discriminate; intros c Hc; simpl in Hc; repeat (destruct Hc as [<-|Hc]; [discriminate|]); destruct Hc.
  - eexists. cbn [map]. eapply file_line; [left; reflexivity|]. eapply file_line; [right; reflexivity|]. apply file_last. discriminate.
Qed.

(** header names keep their blanks although values are trimmed: with the header "x, class" there is no column "class" *)
Lemma P_C68_header_blanks :
  forall content, file_of [list_ascii_of_string "x, class"; list_ascii_of_string "1, 1"] content ->
  exists s, read_csv content true = Ok s /\ map feat_name (s_features s) = ["x"; " class"]%string /\ set_target s "class" = Panic UnwrapNone.
Proof.
  intros content Hf. unfold read_csv. rewrite (lines_file _ _ Hf).
  - change (map_res parse_row [list_ascii_of_string "1, 1"]) with (map_res parse_row (map (joined [","%char]) [[["1"%char]; [" "; "1"]%char]])).
    assert (C : cell ["1"%char] 1 /\ cell [" "; "1"]%char 1).
    { assert (L : literal_ok (mkLit NoSign [1%nat] None None)) by (split; [constructor; [lia|constructor]|split; [constructor|split; [left; discriminate|exact I]]]).
      split; [exists [], (mkLit NoSign [1%nat] None None), []|exists [" "%char], (mkLit NoSign [1%nat] None None), []]; (split; [|split; [constructor|split; [exact L|split; [reflexivity|unfold literal_value; simpl; field]]]]); [constructor|constructor; [do 5 right; left; reflexivity|constructor]]. }
    rewrite (rows_ok [[["1"%char]; [" "; "1"]%char]] [[1; 1]]); [|intros r [<-|[]]; discriminate|repeat constructor; apply C].
    cbn [bind]. eexists. split; [reflexivity|]. split; reflexivity.
  - assert (K : forall l, (forall c, In c l -> c <> LF) -> last l " "%char <> CR -> line_ok l).
    { intros l H1 H2. split; [intros Q; exact (H1 _ Q eq_refl)|]. intros l' ->. apply H2. apply last_last. }
    repeat constructor; apply K; try discriminate; intros c Hc; simpl in Hc; repeat (destruct Hc as [<-|Hc]; [discriminate|]); destruct Hc.
Qed.
