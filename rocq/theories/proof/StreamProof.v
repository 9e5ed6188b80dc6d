(** Record streams: framing, round trips, truncation. *)
From Verif.model Require Import Base Stream.
From Verif.spec Require Import StreamSpec.
Local Open Scope Z_scope.

Lemma drains_det {S X} (next : S -> step S X) s xs e :
  drains next s xs e -> forall ys e', drains next s ys e' -> xs = ys /\ e = e'.
Proof.
  induction 1 as [s H | s H | s x s' xs e H D IH]; intros ys e' D';
    inversion D' as [? H' | ? H' | ? y s2 zs ? H' D2]; subst; try congruence; auto.
  rewrite H in H'. inversion H'; subst. destruct (IH _ _ D2); subst; auto.
Qed.

(** *** Length-prefixed records *)
Lemma pack_le32 n : 0 <= n < 4294967296 -> exists h, pack_u32 n = Ok h /\ le32 n h.
Proof.
  intros Hn. unfold pack_u32.
  destruct (Z.leb_spec 0 n); [| lia]. destruct (Z.ltb_spec n 4294967296); [| lia]. cbn [andb].
  eexists; split; [reflexivity |].
  exists (n mod 256), ((n / 256) mod 256), ((n / 65536) mod 256), ((n / 16777216) mod 256).
  split; [reflexivity |]. unfold is_byte.
  repeat split; try (apply Z.mod_pos_bound; lia).
  assert (n / 65536 = n / 256 / 256) as -> by (rewrite Z.div_div by lia; f_equal).
  assert (n / 16777216 = n / 256 / 256 / 256) as -> by (rewrite !Z.div_div by lia; f_equal).
  assert (n / 256 / 256 / 256 < 256)
    by (rewrite !Z.div_div by lia; apply Z.div_lt_upper_bound; lia).
  assert (0 <= n / 256 / 256 / 256) by (repeat apply Z.div_pos; lia).
  rewrite (Z.mod_small (n / 256 / 256 / 256) 256) by lia.
  pose proof (Z.div_mod n 256 ltac:(lia)).
  pose proof (Z.div_mod (n / 256) 256 ltac:(lia)).
  pose proof (Z.div_mod (n / 256 / 256) 256 ltac:(lia)). lia.
Qed.

Lemma le32_range n h : le32 n h -> 0 <= n < 4294967296.
Proof. intros (a & b & c & d & _ & A & B & C & D & ->). unfold is_byte in *. lia. Qed.

Lemma le32_len n h : le32 n h -> length h = 4%nat.
Proof. intros (a & b & c & d & -> & _). reflexivity. Qed.

Lemma le32_fun n h h' : le32 n h -> le32 n h' -> h = h'.
Proof.
  intros (a & b & c & d & -> & A & B & C & D & E) (a' & b' & c' & d' & -> & A' & B' & C' & D' & E').
  unfold is_byte in *.
  assert (a = a') by lia. subst a'. assert (b = b') by lia. subst b'.
  assert (c = c') by lia. subst c'. assert (d = d') by lia. subst d'. reflexivity.
Qed.

Lemma framed_fun xs f : framed xs f -> forall f', framed xs f' -> f = f'.
Proof.
  induction 1 as [| x xs h f Hh Hf IH]; intros f' H'; inversion H'; subst; auto.
  match goal with A : le32 _ ?k |- _ => rewrite (le32_fun _ _ _ Hh A) end.
  match goal with A : framed xs _ |- _ => rewrite (IH _ A) end. reflexivity.
Qed.

Lemma writes_framed xs : forall f0,
  Forall (fun x => Z.of_nat (length x) < 4294967296) xs ->
  exists f, protobuf_writes xs f0 = Ok (f0 ++ f) /\ framed xs f.
Proof.
  induction xs as [| x xs IH]; intros f0 H.
  - exists []. rewrite app_nil_r. split; [reflexivity | constructor].
  - inversion H; subst. cbn [protobuf_writes]. unfold protobuf_stream_write.
    destruct (pack_le32 (Z.of_nat (length x))) as (h & Eh & Hh); [lia |].
    rewrite Eh. cbn [obind].
    destruct (IH ((f0 ++ h) ++ x)) as (f & Ef & Hf); [assumption |].
    exists (h ++ x ++ f). rewrite Ef, <- !app_assoc. split; [reflexivity |]. now constructor.
Qed.

Lemma writes_too_long xs : forall f0,
  Exists (fun x => 4294967296 <= Z.of_nat (length x)) xs -> protobuf_writes xs f0 = Fail.
Proof.
  induction xs as [| x xs IH]; intros f0 H; [inversion H |].
  cbn [protobuf_writes]. unfold protobuf_stream_write, pack_u32.
  inversion H; subst.
  - destruct (Z.leb_spec 0 (Z.of_nat (length x))); [| lia].
    destruct (Z.ltb_spec (Z.of_nat (length x)) 4294967296); [lia |]. reflexivity.
  - destruct (_ && _); [cbn [obind]; now apply IH | reflexivity].
Qed.

Lemma read_record n h r : le32 n h ->
  protobuf_stream_read (h ++ r) = Yield (firstn (Z.to_nat n) r) (skipn (Z.to_nat n) r).
Proof.
  intros (a & b & c & d & -> & A & B & C & D & ->). reflexivity.
Qed.

Lemma read_short r : (length r < 4)%nat -> protobuf_stream_read r = Halt.
Proof.
  intros H. unfold protobuf_stream_read, fd_read.
  change (Z.to_nat 4) with 4%nat. rewrite firstn_all2 by lia.
  destruct (Nat.ltb_spec (length r) 4); [reflexivity | lia].
Qed.

Lemma framed_prefix xs f : framed xs f -> forall ys g, framed ys g ->
  framed (xs ++ ys) (f ++ g).
Proof.
  induction 1 as [| x xs h f Hh Hf IH]; intros ys g Hg; [exact Hg |].
  cbn [app]. rewrite <- !app_assoc. constructor; auto.
Qed.

(** Complete records are read back whatever follows them. *)
Lemma drains_records xs f : framed xs f -> forall r zs e,
  drains protobuf_stream_read r zs e -> drains protobuf_stream_read (f ++ r) (xs ++ zs) e.
Proof.
  induction 1 as [| x xs h f Hh Hf IH]; intros r zs e D; [exact D |].
  rewrite <- !app_assoc. cbn [app]. eapply dr_item.
  - rewrite (read_record _ _ _ Hh). rewrite Nat2Z.id.
    rewrite firstn_app, skipn_app, firstn_all, skipn_all, Nat.sub_diag. cbn [firstn skipn app].
    rewrite app_nil_r. reflexivity.
  - now apply IH.
Qed.

Lemma framed_read xs f : framed xs f -> drains protobuf_stream_read f xs Stopped.
Proof.
  intros H. rewrite <- (app_nil_r f), <- (app_nil_r xs).
  apply (drains_records _ _ H). apply dr_stop. reflexivity.
Qed.

(** A cut anywhere: the complete records, then possibly one shortened record. *)
Lemma framed_cut xs f : framed xs f -> forall k, (k <= length f)%nat ->
  exists done g, (exists rest, xs = done ++ rest) /\ framed done g /\ (length g <= k)%nat /\
    ((k - length g < 4)%nat /\
       drains protobuf_stream_read (firstn k f) done Stopped
     \/
     exists x rest, xs = done ++ x :: rest /\
       (4 <= k - length g < 4 + length x)%nat /\
       drains protobuf_stream_read (firstn k f)
         (done ++ [firstn (k - length g - 4) x]) Stopped).
Proof.
  induction 1 as [| x xs h f Hh Hf IH]; intros k Hk.
  - exists [], []. split; [now exists [] |]. split; [constructor |]. split; [cbn; lia |].
    left. cbn in Hk. split; [cbn; lia |]. assert (k = 0%nat) as -> by lia. apply dr_stop. reflexivity.
  - pose proof (le32_len _ _ Hh) as L4. rewrite !app_length in Hk.
    destruct (Nat.lt_ge_cases k 4) as [K | K];
      [| destruct (Nat.lt_ge_cases k (4 + length x)) as [K' | K']].
    + exists [], []. split; [now exists (x :: xs) |]. split; [constructor |]. split; [cbn; lia |].
      left. split; [cbn; lia |]. apply dr_stop. apply read_short. rewrite firstn_length. lia.
    + exists [], []. split; [now exists (x :: xs) |]. split; [constructor |]. split; [cbn; lia |].
      right. exists x, xs. split; [reflexivity |]. cbn [length]. split; [lia |].
      rewrite firstn_app, (firstn_all2 h) by lia. rewrite firstn_app, L4.
      replace (k - 4 - length x)%nat with 0%nat by lia. cbn [firstn]. rewrite app_nil_r.
      cbn [app]. eapply dr_item.
      * rewrite (read_record _ _ _ Hh), Nat2Z.id. rewrite firstn_firstn.
        rewrite Nat.min_r by lia. rewrite Nat.sub_0_r. reflexivity.
      * apply dr_stop. apply read_short. rewrite skipn_length, firstn_length. lia.
    + destruct (IH (k - 4 - length x)%nat) as (done & g & (rest & ->) & Hg & Lg & D); [lia |].
      exists (x :: done), (h ++ x ++ g). split; [now exists rest |]. split; [now constructor |].
      rewrite !app_length, L4. split; [lia |].
      assert (firstn k (h ++ x ++ f) = (h ++ x ++ []) ++ firstn (k - 4 - length x) f) as ->.
      { rewrite firstn_app, (firstn_all2 h) by lia. rewrite firstn_app, (firstn_all2 x) by lia.
        rewrite L4, <- !app_assoc. reflexivity. }
      assert (framed [x] (h ++ x ++ [])) as F1 by (constructor; [assumption | constructor]).
      replace (k - (4 + (length x + length g)))%nat with (k - 4 - length x - length g)%nat by lia.
      destruct D as [[D1 D2] | (y & rest' & E & D1 & D2)].
      * left. split; [lia |]. exact (drains_records _ _ F1 _ _ _ D2).
      * right. exists y, rest'. rewrite E. split; [reflexivity |]. split; [lia |].
        exact (drains_records _ _ F1 _ _ _ D2).
Qed.

(** *** JSON lines *)
Lemma readline_line t r : ~ In newline t -> fd_readline (t ++ newline :: r) = (t ++ [newline], r).
Proof.
  induction t as [| c t IH]; intros H; cbn [app fd_readline].
  - now rewrite Z.eqb_refl.
  - destruct (Z.eqb_spec c newline) as [-> | Hc]; [exfalso; apply H; now left |].
    rewrite IH; [reflexivity |]. intros K. apply H. now right.
Qed.

Lemma readline_last t : ~ In newline t -> fd_readline t = (t, []).
Proof.
  induction t as [| c t IH]; intros H; cbn [app fd_readline]; [reflexivity |].
  destruct (Z.eqb_spec c newline) as [-> | Hc]; [exfalso; apply H; now left |].
  rewrite IH; [reflexivity |]. intros K. apply H. now right.
Qed.

Lemma rstrip_snoc l c : rstrip (l ++ [c]) =
  if (c =? comma) || (c =? newline) then rstrip l else l ++ [c].
Proof.
  unfold rstrip. rewrite rev_app_distr. cbn [rev app lstrip].
  destruct (_ || _); [reflexivity |]. cbn [rev]. now rewrite rev_involutive.
Qed.

Lemma rstrip_newline l : rstrip (l ++ [newline]) = rstrip l.
Proof. rewrite rstrip_snoc. reflexivity. Qed.

Lemma rstrip_comma l : rstrip (l ++ [comma; newline]) = rstrip l.
Proof. change [comma; newline] with ([comma] ++ [newline]). rewrite app_assoc, !rstrip_snoc. reflexivity. Qed.

(** Stripping never changes the first character of what remains. *)
Lemma rstrip_prefix l : exists s, l = rstrip l ++ s.
Proof.
  induction l as [| c l IH] using rev_ind; [now exists [] |].
  rewrite rstrip_snoc. destruct (_ || _).
  - destruct IH as (s & E). exists (s ++ [c]). now rewrite app_assoc, <- E.
  - exists []. now rewrite app_nil_r.
Qed.

Lemma rstrip_clean t : clean_end t -> rstrip t = t.
Proof.
  intros (l & c & -> & A & B). rewrite rstrip_snoc.
  destruct (Z.eqb_spec c comma); [contradiction |].
  destruct (Z.eqb_spec c newline); [contradiction |]. reflexivity.
Qed.

Section JsonProof.
Context {X : Type}.
Variable dump1 : X -> dumped.
Variable loads : list Z -> option X.

Hypothesis HC : codec dump1 loads.

Definition seps (ts : list (list Z)) : list Z := concat (map (fun u => [comma; newline] ++ u) ts).

Lemma items_whole xs ts : writes dump1 xs ts -> forall f, json_items dump1 xs f = (f ++ seps ts, true).
Proof.
  induction 1 as [| x t xs ts E F IH]; intros f; cbn [json_items].
  - unfold seps. cbn [map concat]. now rewrite app_nil_r.
  - rewrite E, IH. unfold seps. cbn [map concat]. rewrite <- !app_assoc. reflexivity.
Qed.

Lemma items_broke xs ts x p ys : writes dump1 xs ts -> dump1 x = Broke p -> forall f,
  json_items dump1 (xs ++ x :: ys) f = (f ++ seps ts ++ [comma; newline] ++ p, false).
Proof.
  induction 1 as [| x' t xs ts E F IH]; intros EB f; cbn [json_items app].
  - rewrite EB. unfold seps. cbn [map concat app]. rewrite <- !app_assoc. reflexivity.
  - rewrite E, IH by assumption. unfold seps. cbn [map concat app].
    rewrite <- !app_assoc. cbn [app]. reflexivity.
Qed.

Lemma dump_lines xs ts : writes dump1 xs ts ->
  exists f, json_stream_dump dump1 xs = (f, true) /\ json_lines ts f.
Proof.
  destruct 1 as [| x t xs ts E F].
  - eexists; split; reflexivity.
  - unfold json_stream_dump. rewrite E, (items_whole _ _ F).
    eexists; split; [reflexivity |]. cbn [json_lines app]. unfold seps.
    rewrite <- !app_assoc. reflexivity.
Qed.

Lemma sends_spec xs : forall f ts, writes dump1 xs ts ->
  costream_sends dump1 xs (mk_costream f false true) = Some (mk_costream (f ++ seps ts) false true).
Proof.
  induction xs as [| x xs IH]; intros f ts W; inversion W; subst; cbn [costream_sends].
  - unfold seps. cbn. now rewrite app_nil_r.
  - unfold costream_send. cbn [co_open co_first co_file].
    match goal with A : dump1 x = Whole _ |- _ => rewrite A end.
    erewrite IH by eassumption. unfold seps. cbn [map concat]. rewrite <- !app_assoc. reflexivity.
Qed.

Lemma costream_same xs ts : writes dump1 xs ts ->
  exists c, costream_sends dump1 xs costream_start = Some c /\
    co_file (costream_close c) = fst (json_stream_dump dump1 xs).
Proof.
  destruct 1 as [| x t xs ts E F]; cbn [costream_sends].
  - eexists; split; reflexivity.
  - unfold costream_send, costream_start. cbn [co_open co_first co_file]. rewrite E.
    rewrite (sends_spec _ _ _ F). eexists; split; [reflexivity |].
    unfold json_stream_dump, costream_close. cbn [co_open co_file].
    rewrite E, (items_whole _ _ F). reflexivity.
Qed.

Lemma open_ok r : json_stream_open (lbracket :: newline :: r) = Some r.
Proof. reflexivity. Qed.

Lemma next_comma x t r : dump1 x = Whole t ->
  json_stream_next loads (t ++ comma :: newline :: r) = Yield x r.
Proof.
  intros E. destruct HC as (HW & _ & _). destruct (HW _ _ E) as ((HN & HE & HB) & HL).
  unfold json_stream_next.
  replace (t ++ comma :: newline :: r) with ((t ++ [comma]) ++ newline :: r)
    by now rewrite <- app_assoc.
  rewrite readline_line
    by (intros K; apply in_app_or in K as [K | [K | []]]; [auto | discriminate]).
  rewrite <- app_assoc. cbn [app].
  rewrite rstrip_comma, (rstrip_clean _ HE).
  destruct (list_eq_dec Z.eq_dec t [rbracket]) as [-> | _]; [exfalso; now apply (HB []) |].
  now rewrite HL.
Qed.

Lemma next_final x t r : dump1 x = Whole t ->
  json_stream_next loads (t ++ newline :: r) = Yield x r.
Proof.
  intros E. destruct HC as (HW & _ & _). destruct (HW _ _ E) as ((HN & HE & HB) & HL).
  unfold json_stream_next. rewrite readline_line by assumption.
  rewrite rstrip_newline, (rstrip_clean _ HE).
  destruct (list_eq_dec Z.eq_dec t [rbracket]) as [-> | _]; [exfalso; now apply (HB []) |].
  now rewrite HL.
Qed.

Lemma next_eof : json_stream_next loads [] = Raise.
Proof. destruct HC as (_ & _ & HL). unfold json_stream_next. cbn. now rewrite HL. Qed.

(** The rest of the file holds one line that is not a bracket: at most one more value,
    then an exception. *)
Lemma next_tail p : ~ In newline p -> (forall r, p <> rbracket :: r) ->
  exists zs, drains (json_stream_next loads) p zs Raised.
Proof.
  intros HN HB.
  assert (json_stream_next loads p = match loads (rstrip p) with Some x => Yield x [] | None => Raise end) as E.
  { unfold json_stream_next. rewrite (readline_last _ HN).
    destruct (list_eq_dec Z.eq_dec (rstrip p) [rbracket]) as [R | _]; [| reflexivity].
    exfalso. destruct (rstrip_prefix p) as (s & Es). rewrite R in Es. now apply (HB s). }
  destruct (loads (rstrip p)) as [x |].
  - exists [x]. eapply dr_item; [exact E |]. apply dr_raise. exact next_eof.
  - exists []. now apply dr_raise.
Qed.

Lemma drains_comma xs ts : writes dump1 xs ts -> forall r zs e,
  drains (json_stream_next loads) r zs e ->
  drains (json_stream_next loads) (concat (map (fun u => u ++ [comma; newline]) ts) ++ r) (xs ++ zs) e.
Proof.
  induction 1 as [| x t xs ts E F IH]; intros r zs e D; [exact D |].
  cbn [map concat app]. rewrite <- !app_assoc. cbn [app].
  eapply dr_item; [exact (next_comma _ _ _ E) |]. now apply IH.
Qed.

Lemma body_shift t ts : t ++ seps ts =
  concat (map (fun u => u ++ [comma; newline]) (removelast (t :: ts))) ++ last (t :: ts) [].
Proof.
  revert t. induction ts as [| u ts IH]; intros t; [now cbn; rewrite app_nil_r |].
  change (removelast (t :: u :: ts)) with (t :: removelast (u :: ts)).
  change (last (t :: u :: ts) []) with (last (u :: ts) []).
  cbn [map concat]. rewrite <- !app_assoc, <- IH. unfold seps. cbn [map concat].
  rewrite <- !app_assoc. reflexivity.
Qed.

Lemma writes_last x xs t ts : writes dump1 (x :: xs) (t :: ts) ->
  exists xs0 y, x :: xs = xs0 ++ [y] /\ writes dump1 xs0 (removelast (t :: ts)) /\
    dump1 y = Whole (last (t :: ts) []).
Proof.
  revert x t xs. induction ts as [| u ts IH]; intros x t xs W.
  - inversion W; subst. match goal with A : Forall2 _ xs [] |- _ => inversion A; subst end.
    exists [], x. repeat split; [constructor | assumption].
  - inversion W; subst. destruct xs as [| x2 xs].
    + match goal with A : Forall2 _ [] (_ :: _) |- _ => inversion A end.
    + destruct (IH x2 u xs) as (xs0 & y & E & W0 & L); [assumption |].
      exists (x :: xs0), y. rewrite E. split; [reflexivity |]. split; [| exact L].
      change (removelast (t :: u :: ts)) with (t :: removelast (u :: ts)). constructor; assumption.
Qed.

Lemma round_trip xs ts f : writes dump1 xs ts -> json_lines ts f ->
  exists fd, json_stream_open f = Some fd /\ drains (json_stream_next loads) fd xs Stopped.
Proof.
  intros W HF. destruct W as [| x t xs ts E F].
  - cbn in HF. subst f. eexists; split; [apply open_ok |].
    apply dr_stop. reflexivity.
  - cbn [json_lines] in HF. subst f. cbn [app]. eexists; split; [apply open_ok |].
    change (concat (map (fun u => comma :: newline :: u) ts)) with (seps ts).
    rewrite app_assoc, body_shift, <- app_assoc.
    destruct (writes_last x xs t ts) as (xs0 & y & -> & W0 & L); [now constructor |].
    apply (drains_comma _ _ W0). eapply dr_item; [exact (next_final _ _ _ L) |].
    apply dr_stop. reflexivity.
Qed.

(** Truncated bodies: complete items, then a part of a line. *)
Lemma drains_open xs ts p : writes dump1 xs ts -> ~ In newline p -> (forall r, p <> rbracket :: r) ->
  exists zs, drains (json_stream_next loads)
    (concat (map (fun u => u ++ [comma; newline]) ts) ++ p) (xs ++ zs) Raised.
Proof.
  intros W HN HB. destruct (next_tail p HN HB) as (zs & D). exists zs. now apply drains_comma.
Qed.

Lemma no_bracket_prefix {t p : list Z} : (forall r, t <> rbracket :: r) -> (exists s, t = p ++ s) ->
  forall r, p <> rbracket :: r.
Proof. intros H (s & ->) r ->. now apply (H (r ++ s)). Qed.

Lemma prefix_notin {t p : list Z} : ~ In newline t -> (exists s, t = p ++ s) -> ~ In newline p.
Proof. intros H (s & ->) K. apply H. apply in_or_app. now left. Qed.

(** A strict prefix of "t ,\n t ,\n ... t \n ]". *)
Lemma cut_body xs : forall x t ts, writes dump1 (x :: xs) (t :: ts) ->
  forall p q, p ++ q = t ++ seps ts ++ [newline; rbracket] -> q <> [] ->
  exists done zs, (exists rest, x :: xs = done ++ rest) /\
    drains (json_stream_next loads) p (done ++ zs) Raised /\ (length zs <= 1)%nat.
Proof.
  assert (forall p, ~ In newline p -> (forall r, p <> rbracket :: r) ->
    exists zs, drains (json_stream_next loads) p zs Raised /\ (length zs <= 1)%nat) as NT.
  { intros p HN HB. destruct (next_tail p HN HB) as (zs & D). exists zs. split; [exact D |].
    inversion D; subst; cbn; [lia |].
    match goal with A : json_stream_next loads p = Yield _ _ |- _ => rename A into Y end.
    unfold json_stream_next in Y. rewrite (readline_last _ HN) in Y.
    destruct (list_eq_dec _ _ _); [discriminate |].
    destruct (loads (rstrip p)); inversion Y; subst.
    match goal with A : drains _ [] _ _ |- _ =>
      destruct (drains_det _ _ _ _ A [] Raised) as (-> & _); [apply dr_raise, next_eof |] end.
    cbn. lia. }
  induction xs as [| x2 xs IH]; intros x t ts W p q Hpq Hq.
  - inversion W as [| ? ? ? ? E F]; subst. inversion F; subst.
    destruct HC as (HW & _ & _). destruct (HW _ _ E) as ((HN & HE & HB) & HL).
    cbn [seps map concat app] in Hpq.
    destruct (app_eq_app _ _ _ _ Hpq) as (l & [(A & B) | (A & B)]).
    + (* the cut is inside or after "\n]" *)
      destruct l as [| c l].
      * rewrite app_nil_r in A. subst p. exists []. cbn [app].
        destruct (NT t HN HB) as (zs & D & L). exists zs. split; [now exists [x] |]. auto.
      * cbn [app] in B. injection B as <- B.
        destruct l as [| c2 l].
        { subst p. exists [x], []. split; [exists []; reflexivity |]. split; [| cbn; lia].
          eapply dr_item; [exact (next_final _ _ _ E) |]. apply dr_raise, next_eof. }
        cbn [app] in B. injection B as <- B. symmetry in B. apply app_eq_nil in B as [_ B]. contradiction.
    + exists []. cbn [app].
      destruct (NT p (prefix_notin HN (ex_intro _ l A)) (no_bracket_prefix HB (ex_intro _ l A))) as (zs & D & L).
      exists zs. split; [now exists [x] |]. auto.
  - inversion W as [| ? ? ? ? E F]; subst.
    inversion F as [| ? u ? us E2 F2]; subst.
    destruct HC as (HW & _ & _). destruct (HW _ _ E) as ((HN & HE & HB) & HL).
    replace (t ++ seps (u :: us) ++ [newline; rbracket])
      with (t ++ comma :: newline :: (u ++ seps us ++ [newline; rbracket])) in Hpq
      by (unfold seps; cbn [map concat app]; now rewrite <- !app_assoc).
    destruct (app_eq_app _ _ _ _ Hpq) as (l & [(A & B) | (A & B)]).
    + destruct l as [| c l].
      * rewrite app_nil_r in A. subst p. exists []. cbn [app].
        destruct (NT t HN HB) as (zs & D & L). exists zs. split; [now exists (x :: x2 :: xs) |]. auto.
      * cbn [app] in B. injection B as <- B. destruct l as [| c2 l].
        { subst p. exists []. cbn [app].
          destruct (NT (t ++ [comma])) as (zs & D & L).
          - intros K. apply in_app_or in K as [K | [K | []]]; [auto | discriminate].
          - intros r K. destruct t as [| c0 t0]; [discriminate |].
            cbn in K. injection K as -> _. now apply (HB t0).
          - exists zs. split; [now exists (x :: x2 :: xs) |]. auto. }
        cbn [app] in B. injection B as <- B.
        destruct (IH x2 u us F l q (eq_sym B) Hq) as (done & zs & (rest & R) & D & L).
        exists (x :: done), zs. split; [exists rest; cbn; now rewrite R |]. split; [| exact L].
        subst p. cbn [app]. eapply dr_item; [exact (next_comma _ _ _ E) |]. exact D.
    + exists []. cbn [app].
      destruct (NT p (prefix_notin HN (ex_intro _ l A)) (no_bracket_prefix HB (ex_intro _ l A))) as (zs & D & L).
      exists zs. split; [now exists (x :: x2 :: xs) |]. auto.
Qed.

Lemma open_short f : (length f < 2)%nat -> json_stream_open f = None.
Proof.
  intros H. destruct f as [| a [| b f]]; cbn in H; try lia; unfold json_stream_open; cbn.
  - reflexivity.
  - destruct (a =? newline); (destruct (list_eq_dec _ _ _); [discriminate | reflexivity]).
Qed.

(** Every strict prefix of a complete file is rejected, after at most one wrong value. *)
Lemma truncated xs ts f : writes dump1 xs ts -> json_lines ts f ->
  forall k, (k < length f)%nat ->
  json_stream_open (firstn k f) = None \/
  exists fd done zs, json_stream_open (firstn k f) = Some fd /\ (exists rest, xs = done ++ rest) /\
    drains (json_stream_next loads) fd (done ++ zs) Raised /\ (length zs <= 1)%nat.
Proof.
  intros W HF k Hk.
  destruct (Nat.lt_ge_cases k 2) as [K | K]; [left; apply open_short; rewrite firstn_length; lia |].
  right. destruct k as [| [| k]]; [lia | lia |].
  destruct W as [| x t xs ts E F].
  - cbn in HF. subst f. cbn in Hk. destruct k; [| lia].
    exists [], [], []. split; [reflexivity |]. split; [now exists [] |]. split; [| cbn; lia].
    apply dr_raise, next_eof.
  - cbn [json_lines] in HF. subst f. cbn [app] in Hk |- *.
    set (b := t ++ _ ++ _) in *. cbn [length] in Hk. cbn [firstn].
    exists (firstn k b).
    destruct (cut_body xs x t ts ltac:(now constructor) (firstn k b) (skipn k b)) as (done & zs & R & D & L).
    + rewrite firstn_skipn. reflexivity.
    + intros K0. apply (f_equal (@length Z)) in K0. rewrite skipn_length in K0. cbn in K0. lia.
    + exists done, zs. split; [apply open_ok |]. auto.
Qed.

(** An item that cannot be serialised: the items before it are readable, and the reader
    then raises. *)
Lemma broken xs ts x p ys : writes dump1 xs ts -> dump1 x = Broke p ->
  exists f fd zs, json_stream_dump dump1 (xs ++ x :: ys) = (f, false) /\
    json_stream_open f = Some fd /\ drains (json_stream_next loads) fd (xs ++ zs) Raised.
Proof.
  intros W EB. destruct HC as (_ & HB & _). destruct (HB _ _ EB) as (N1 & N2).
  destruct W as [| x0 t xs ts E F]; cbn [app]; unfold json_stream_dump.
  - rewrite EB. destruct (next_tail p N1 N2) as (zs & D).
    eexists; eexists; exists zs. split; [reflexivity |]. split; [apply open_ok | exact D].
  - rewrite E, (items_broke _ _ _ _ _ F EB).
    destruct (drains_open (x0 :: xs) (t :: ts) p ltac:(now constructor) N1 N2) as (zs & D).
    exists (lbracket :: newline :: t ++ seps ts ++ comma :: newline :: p),
      (t ++ seps ts ++ comma :: newline :: p), zs.
    split; [cbn [app]; rewrite <- ?app_assoc; reflexivity |]. split; [apply open_ok |].
    enough (t ++ seps ts ++ comma :: newline :: p =
            concat (map (fun u => u ++ [comma; newline]) (t :: ts)) ++ p) as -> by exact D.
    clear. revert t. induction ts as [| u ts IH]; intros t; cbn [map concat app].
    + unfold seps. cbn. rewrite app_nil_r, <- app_assoc. reflexivity.
    + unfold seps in *. cbn [map concat app]. rewrite <- !app_assoc. cbn [app].
      rewrite IH. cbn [map concat]. rewrite <- !app_assoc. reflexivity.
Qed.

End JsonProof.
