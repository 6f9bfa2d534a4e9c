From Coq Require Import Ascii String.
From Verif Require Import ListAux NpyModel NpySpec.
Open Scope list_scope.
Open Scope char_scope.
Open Scope Z_scope.

Lemma code_byte z : 0 <= z < 256 -> code (byte z) = z.
Proof. intros H. unfold code, byte. rewrite N_ascii_embedding; [lia|]. zify. lia. Qed.
Lemma code_range c : 0 <= code c < 256.
Proof. unfold code. assert (H := N_ascii_bounded c). lia. Qed.
Lemma code_inj a b : code a = code b -> a = b.
Proof.
  unfold code. intros H. rewrite <- (ascii_N_embedding a), <- (ascii_N_embedding b). f_equal. lia.
Qed.
Lemma digit_code d : 0 <= d <= 9 -> code (digit d) = 48 + d.
Proof. intros H. unfold digit. apply code_byte. lia. Qed.
Lemma digit_is d : 0 <= d <= 9 -> is_digit (digit d) = true.
Proof. intros H. unfold is_digit. rewrite digit_code by lia. lia. Qed.

(** * Lexing *)
Fixpoint lex_run (s : lex_state) (l : bytes) : option (list token * lex_state) :=
  match l with
  | [] => Some ([], s)
  | c :: r => match lex_step s c with
              | None => None
              | Some (ts, s') => match lex_run s' r with None => None | Some (us, s'') => Some (ts ++ us, s'') end
              end
  end.
Lemma lex_run_ok s l ts s' r : lex_run s l = Some (ts, s') ->
  lex s (l ++ r) = match lex s' r with None => None | Some us => Some (ts ++ us) end.
Proof.
  revert s ts. induction l as [|c l IH]; intros s ts H; cbn [lex_run app] in *.
  - injection H as <- <-. destruct (lex s r); reflexivity.
  - cbn [lex]. destruct (lex_step s c) as [[t1 s1]|]; [|discriminate].
    destruct (lex_run s1 l) as [[t2 s2]|] eqn:E; [|discriminate]. injection H as <- <-.
    rewrite (IH _ _ E). destruct (lex s2 r); [|reflexivity]. now rewrite app_assoc.
Qed.
Lemma lex_run_app s l1 l2 t1 s1 t2 s2 : lex_run s l1 = Some (t1, s1) -> lex_run s1 l2 = Some (t2, s2) ->
  lex_run s (l1 ++ l2) = Some (t1 ++ t2, s2).
Proof.
  revert s t1. induction l1 as [|c l1 IH]; intros s t1 H H2; cbn [lex_run app] in *.
  - injection H as <- <-. exact H2.
  - destruct (lex_step s c) as [[u1 v1]|]; [|discriminate].
    destruct (lex_run v1 l1) as [[u2 v2]|] eqn:E; [|discriminate]. injection H as <- <-.
    rewrite (IH _ _ E H2). now rewrite app_assoc.
Qed.
Lemma lex_digit d : 0 <= d <= 9 -> lex_out (digit d) = Some ([], InNum d).
Proof.
  intros H. unfold lex_out, is_blank. rewrite digit_code by lia.
  replace ((48 + d =? 32) || (48 + d =? 10)) with false by lia.
  destruct (Ascii.eqb_spec (digit d) quote) as [E|_].
  - exfalso. assert (K : code (digit d) = code quote) by now rewrite E. rewrite digit_code in K by lia. change (code quote) with 39 in K. lia.
  - rewrite digit_is by lia. repeat f_equal. lia.
Qed.
Lemma decimal_app k n acc : decimal k n acc = decimal k n [] ++ acc.
Proof.
  revert n acc. induction k as [|k IH]; intros n acc; cbn [decimal]; [reflexivity|].
  destruct (n <? 10); [reflexivity|]. rewrite IH, (IH _ [_]). rewrite <- app_assoc. reflexivity.
Qed.
Lemma lex_decimal k n : 0 <= n < 10 ^ Z.of_nat k -> (0 < k)%nat -> lex_run Out (decimal k n []) = Some ([], InNum n).
Proof.
  revert n. induction k as [|k IH]; intros n Hn Hk; [lia|]. cbn [decimal].
  destruct (Z.ltb_spec n 10) as [Hlt|Hge].
  - cbn [lex_run lex_step]. rewrite lex_digit by lia. reflexivity.
  - rewrite Nat2Z.inj_succ, Z.pow_succ_r in Hn by lia.
    assert (Hd : 0 <= n / 10 < 10 ^ Z.of_nat k) by (split; [apply Z.div_pos; lia | apply Z.div_lt_upper_bound; lia]).
    destruct k as [|k]; [cbn in Hd; lia|].
    rewrite decimal_app. eapply (lex_run_app _ _ _ [] _ [] _).
    + apply IH; lia.
    + cbn [lex_run lex_step]. assert (Hm := Z.mod_pos_bound n 10 ltac:(lia)). rewrite digit_is by lia.
      assert (0 < n / 10) by (apply Z.div_str_pos; lia).
      replace (n / 10 =? 0) with false by lia. rewrite digit_code by lia. repeat f_equal.
      assert (Hdm := Z.div_mod n 10 ltac:(lia)). lia.
Qed.
Lemma lex_to_string n : 0 <= n < 2 ^ 64 -> lex_run Out (to_string n) = Some ([], InNum n).
Proof. intros H. apply lex_decimal; [|lia]. change (10 ^ Z.of_nat 20) with 100000000000000000000. lia. Qed.
Lemma number_decimal k n r : 0 <= n < 10 ^ Z.of_nat k -> (0 < k)%nat -> number 0 (decimal k n [] ++ r) = number n r.
Proof.
  revert n r. induction k as [|k IH]; intros n r Hn Hk; [lia|]. cbn [decimal].
  destruct (Z.ltb_spec n 10) as [Hlt|Hge].
  - cbn [app number]. rewrite digit_is, digit_code by lia. f_equal. lia.
  - rewrite Nat2Z.inj_succ, Z.pow_succ_r in Hn by lia.
    assert (Hd : 0 <= n / 10 < 10 ^ Z.of_nat k) by (split; [apply Z.div_pos; lia | apply Z.div_lt_upper_bound; lia]).
    destruct k as [|k]; [cbn in Hd; lia|].
    rewrite decimal_app, <- app_assoc, IH by lia. cbn [app number].
    assert (Hm := Z.mod_pos_bound n 10 ltac:(lia)). rewrite digit_is, digit_code by lia. f_equal.
    assert (Hdm := Z.div_mod n 10 ltac:(lia)). lia.
Qed.
Lemma number_to_string n : 0 <= n < 2 ^ 64 -> number 0 (to_string n) = Some n.
Proof.
  intros H. unfold to_string. rewrite <- (app_nil_r (decimal 20 n [])). rewrite number_decimal; [reflexivity| |lia].
  change (10 ^ Z.of_nat 20) with 100000000000000000000. lia.
Qed.
Lemma decimal_digits k n : 0 <= n -> Forall (fun c => is_digit c = true) (decimal k n []).
Proof.
  revert n. induction k as [|k IH]; intros n Hn; cbn [decimal]; [constructor|].
  destruct (Z.ltb_spec n 10).
  - constructor; [|constructor]. apply digit_is. lia.
  - rewrite decimal_app. apply Forall_app. split; [apply IH, Z.div_pos; lia|]. constructor; [|constructor].
    apply digit_is. assert (Hm := Z.mod_pos_bound n 10 ltac:(lia)). lia.
Qed.
Lemma decimal_not_nil k n : (0 < k)%nat -> decimal k n [] <> [].
Proof.
  intros H. destruct k as [|k]; [lia|]. cbn [decimal]. destruct (n <? 10); [discriminate|]. rewrite decimal_app.
  destruct (decimal k (n / 10) []); discriminate.
Qed.
Lemma lex_string a l : Forall (fun c => c <> quote) l -> lex_run (InStr a) l = Some ([], InStr (a ++ l)).
Proof.
  revert a. induction l as [|c l IH]; intros a H; cbn [lex_run]; [now rewrite app_nil_r|].
  inversion H as [|? ? Hc Hl]; subst. cbn [lex_step]. destruct (Ascii.eqb_spec c quote); [contradiction|].
  rewrite IH by auto. now rewrite <- app_assoc.
Qed.
Lemma digit_not_quote c : is_digit c = true -> c <> quote.
Proof. intros H ->. discriminate. Qed.

Definition shape_tokens (shape : list Z) : list token := flat_map (fun n => [TNum n; TP ","]) shape.
Lemma lex_shape shape : Forall (fun n => 0 <= n < 2 ^ 64) shape ->
  lex_run Out (flat_map (fun n => to_string n ++ text ", ") shape) = Some (shape_tokens shape, Out).
Proof.
  induction 1 as [|n shape Hn H IH]; [reflexivity|]. cbn [flat_map shape_tokens].
  apply (lex_run_app _ _ _ [TNum n; TP ","] Out); [|exact IH].
  apply (lex_run_app _ _ _ [] (InNum n)); [now apply lex_to_string|]. reflexivity.
Qed.
Lemma tuple_shape shape acc r : tuple_items acc (shape_tokens shape ++ TP ")" :: r) = Some (acc ++ shape, r).
Proof.
  revert acc. induction shape as [|n shape IH]; intros acc; cbn [shape_tokens flat_map app tuple_items is_p].
  - rewrite Ascii.eqb_refl. now rewrite app_nil_r.
  - rewrite Ascii.eqb_refl. etransitivity; [apply (IH (acc ++ [n]))|]. now rewrite <- app_assoc.
Qed.

(** * The header *)
Definition dtype_ok (d : dtype) : Prop :=
  In (d_order d) ["<"; ">"; "|"] /\ In (d_kind d) ["b"; "i"; "u"; "f"; "c"; "V"] /\ 0 <= d_size d < 2 ^ 64.
Lemma dtype_chars d : dtype_ok d -> Forall (fun c => c <> quote) (dtype_str d).
Proof.
  intros (H1 & H2 & H3). unfold dtype_str. constructor; [|constructor].
  - intros E. rewrite E in H1. cbn in H1. repeat (destruct H1 as [H1|H1]; [discriminate|]). exact H1.
  - intros E. rewrite E in H2. cbn in H2. repeat (destruct H2 as [H2|H2]; [discriminate|]). exact H2.
  - eapply Forall_impl; [|apply decimal_digits; lia]. intros c. apply digit_not_quote.
Qed.
Lemma descr_round d : dtype_ok d -> parse_descr (dtype_str d) = Some (d_order d, d_kind d, d_size d).
Proof.
  intros (H1 & H2 & H3). unfold dtype_str, parse_descr. assert (Hs := number_to_string (d_size d) H3).
  assert (Hn : to_string (d_size d) <> []) by (apply decimal_not_nil; lia).
  destruct (to_string (d_size d)) as [|c r]; [contradiction|].
  assert (E1 : existsb (Ascii.eqb (d_order d)) ["<"; ">"; "|"] = true)
    by (apply existsb_exists; exists (d_order d); split; [exact H1 | apply Ascii.eqb_refl]).
  assert (E2 : existsb (Ascii.eqb (d_kind d)) ["b"; "i"; "u"; "f"; "c"; "V"] = true)
    by (apply existsb_exists; exists (d_kind d); split; [exact H2 | apply Ascii.eqb_refl]).
  rewrite E1, E2. cbn [andb]. now rewrite Hs.
Qed.
Definition header_tokens (v : npy_view) : list token :=
  [TP "{"; TStr (text "descr"); TP ":"; TStr (dtype_str (v_dtype v)); TP ","; TStr (text "fortran_order"); TP ":";
   TId (text (if v_fortran v then "True" else "False")); TP ","; TStr (text "shape"); TP ":"; TP "("]
  ++ shape_tokens (v_shape v) ++ [TP ")"; TP ","; TP "}"].
Lemma lex_header v : dtype_ok (v_dtype v) -> Forall (fun n => 0 <= n < 2 ^ 64) (v_shape v) ->
  lex_run Out (header_dict v) = Some (header_tokens v, Out).
Proof.
  intros Hd Hs. unfold header_dict, shape_str.
  assert (Ht : header_tokens v =
    [TP "{"; TStr (text "descr"); TP ":"] ++ [] ++ [TStr (dtype_str (v_dtype v)); TP ","; TStr (text "fortran_order"); TP ":"] ++ [] ++
    [TId (text (if v_fortran v then "True" else "False")); TP ","; TStr (text "shape"); TP ":"] ++ ([TP "("] ++ shape_tokens (v_shape v) ++ [TP ")"]) ++
    [TP ","; TP "}"]) by (unfold header_tokens; cbn [app]; rewrite <- !app_assoc; reflexivity).
  rewrite Ht.
  apply (lex_run_app _ _ _ _ (InStr [])); [reflexivity|].
  apply (lex_run_app _ _ _ _ (InStr (dtype_str (v_dtype v)))); [now rewrite lex_string by now apply dtype_chars|].
  apply (lex_run_app _ _ _ _ Out); [reflexivity|].
  apply (lex_run_app _ _ _ _ (InId (text (if v_fortran v then "True" else "False")))); [destruct (v_fortran v); reflexivity|].
  apply (lex_run_app _ _ _ _ Out); [reflexivity|].
  apply (lex_run_app _ _ _ _ Out); [|reflexivity].
  apply (lex_run_app _ _ _ _ Out); [reflexivity|].
  apply (lex_run_app _ _ _ _ Out); [now apply lex_shape|reflexivity].
Qed.
Lemma lex_spaces k : lex_run Out (repeat " " k) = Some ([], Out).
Proof. induction k as [|k IH]; [reflexivity|]. cbn [repeat lex_run lex_step]. change (lex_out " ") with (Some (@nil token, Out)). cbn iota. now rewrite IH. Qed.
Definition entries_of (v : npy_view) : list (bytes * literal) :=
  [(text "descr", LStr (dtype_str (v_dtype v))); (text "fortran_order", LBool (v_fortran v)); (text "shape", LTuple (v_shape v))].
Lemma parse_header v k : dtype_ok (v_dtype v) -> Forall (fun n => 0 <= n < 2 ^ 64) (v_shape v) ->
  parse_dict (header_dict v ++ repeat " " k ++ [byte 10]) = Some (entries_of v).
Proof.
  intros Hd Hs. unfold parse_dict.
  rewrite (lex_run_ok _ _ _ _ _ (lex_header v Hd Hs)), (lex_run_ok _ _ _ _ _ (lex_spaces k)).
  change (lex Out [byte 10]) with (Some (@nil token)). cbn iota. rewrite !app_nil_r.
  unfold header_tokens. cbn [app]. rewrite Ascii.eqb_refl.
  cbn [parse_entries length]. rewrite Ascii.eqb_refl. cbn [parse_literal is_p]. rewrite Ascii.eqb_refl.
  cbn [parse_entries]. rewrite Ascii.eqb_refl. cbn [parse_literal].
  assert (Hb : bytes_eqb (text (if v_fortran v then "True" else "False")) (text "True") = v_fortran v /\
               bytes_eqb (text (if v_fortran v then "True" else "False")) (text "False") = negb (v_fortran v))
    by (destruct (v_fortran v); split; reflexivity).
  destruct Hb as [-> Hb2]. rewrite Hb2.
  replace (if v_fortran v then Some (LBool true, _) else if negb (v_fortran v) then Some (LBool false, _) else None)
    with (Some (LBool (v_fortran v), TP "," :: TStr (text "shape") :: TP ":" :: TP "(" :: shape_tokens (v_shape v) ++ [TP ")"; TP ","; TP "}"]))
    by (destruct (v_fortran v); reflexivity).
  cbn [is_p]. rewrite Ascii.eqb_refl. cbn [parse_entries]. rewrite Ascii.eqb_refl. cbn [parse_literal]. rewrite Ascii.eqb_refl.
  rewrite tuple_shape. cbn [app is_p]. rewrite Ascii.eqb_refl.
  reflexivity.
Qed.

Lemma spaces_prefix k : (k <= 15)%nat -> firstn k (text "               ") = repeat " " k.
Proof. intros H. do 16 (destruct k as [|k]; [reflexivity|]). lia. Qed.
Lemma padding_range v : 0 <= padding v <= 15.
Proof. unfold padding. assert (H := Z.mod_pos_bound (16 - (6 + 1 + 1 + 2 + non_padded_header_len v) mod 16) 16 ltac:(lia)). lia. Qed.
Lemma padding_aligns v : (10 + (non_padded_header_len v + padding v)) mod 16 = 0.
Proof.
  unfold padding. set (x := non_padded_header_len v). 
  replace (6 + 1 + 1 + 2 + x) with (10 + x) by lia. Z.to_euclidean_division_equations. lia.
Qed.
(** What is written, and when nothing is. *)
Definition header_bytes (v : npy_view) : bytes := header_dict v ++ repeat " " (Z.to_nat (padding v)) ++ [byte 10].
Lemma save_view_ok v : save_view v =
  if non_padded_header_len v + padding v <? 65536
  then Ok (byte 147 :: text "NUMPY" ++ [byte 1] ++ [byte 0] ++ write_le (non_padded_header_len v + padding v) ++ header_bytes v ++ raw_data v)
  else Rejected.
Proof.
  unfold save_view. assert (Hp := padding_range v).
  assert (0 < non_padded_header_len v) by (unfold non_padded_header_len; lia).
  replace (0 <=? non_padded_header_len v + padding v) with true by lia. cbn [andb].
  destruct (non_padded_header_len v + padding v <? 65536); [|reflexivity].
  replace (padding v <=? 15) with true by lia. unfold header_bytes. rewrite spaces_prefix by lia.
  rewrite <- !app_assoc. reflexivity.
Qed.
Lemma header_bytes_length v : Z.of_nat (length (header_bytes v)) = non_padded_header_len v + padding v.
Proof.
  unfold header_bytes. assert (Hp := padding_range v). rewrite !app_length, repeat_length. unfold non_padded_header_len. cbn [length]. lia.
Qed.
Lemma land_255 x : 0 <= x -> Z.land x 255 = x mod 256.
Proof. intros H. change 255 with (Z.ones 8). rewrite Z.land_ones by lia. reflexivity. Qed.
Lemma le_field x : 0 <= x < 65536 -> code (byte (Z.land x 255)) + 256 * code (byte (Z.land (Z.shiftr x 8) 255)) = x.
Proof.
  intros H. rewrite Z.shiftr_div_pow2 by lia. change (2 ^ 8) with 256.
  assert (0 <= x / 256) by (apply Z.div_pos; lia). rewrite !land_255 by lia.
  assert (H1 := Z.mod_pos_bound x 256 ltac:(lia)). assert (H2 := Z.mod_pos_bound (x / 256) 256 ltac:(lia)).
  rewrite !code_byte by lia. Z.to_euclidean_division_equations. lia.
Qed.

Lemma read_saved v b : dtype_ok (v_dtype v) -> Forall (fun n => 0 <= n < 2 ^ 64) (v_shape v) ->
  fold_right Z.mul 1 (v_shape v) * d_size (v_dtype v) < 2 ^ 64 -> save_view v = Ok b ->
  Z.of_nat (length (raw_data v)) = fold_right Z.mul 1 (v_shape v) * d_size (v_dtype v) ->
  read_npy b = Some (mk_np (d_order (v_dtype v)) (d_kind (v_dtype v)) (d_size (v_dtype v)) (v_fortran v) (v_shape v) (raw_data v)).
Proof.
  intros Hd Hs Hf Hb Hl. rewrite save_view_ok in Hb. destruct (Z.ltb_spec (non_padded_header_len v + padding v) 65536) as [Hlt|]; [|discriminate].
  assert (Hinj : forall x y : bytes, Ok x = Ok y -> x = y) by (intros x y E; now injection E). apply Hinj in Hb. subst b. clear Hinj.
  set (len := non_padded_header_len v + padding v) in *.
  assert (Hp := padding_range v). assert (Hlen := header_bytes_length v). fold len in Hlen.
  unfold write_le. cbn [text list_ascii_of_string app]. unfold read_npy.
  change (bytes_eqb _ _) with true. change (code (byte 1) =? 1) with true. change (code (byte 0) =? 0) with true. cbn [andb].
  assert (0 < len) by (unfold len, non_padded_header_len; lia).
  rewrite le_field by lia.
  assert (E1 : firstn (Z.to_nat len) (header_bytes v ++ raw_data v) = header_bytes v).
  { rewrite <- Hlen, Nat2Z.id. rewrite firstn_app, Nat.sub_diag, firstn_all. cbn [firstn]. apply app_nil_r. }
  assert (E2 : skipn (Z.to_nat len) (header_bytes v ++ raw_data v) = raw_data v).
  { rewrite <- Hlen, Nat2Z.id. rewrite skipn_app, Nat.sub_diag, skipn_all. reflexivity. }
  rewrite E1, E2, Hlen, Z.eqb_refl. unfold len at 1. rewrite padding_aligns. cbn [andb Z.eqb].
  assert (E3 : last (header_bytes v) "a" = byte 10).
  { unfold header_bytes. rewrite app_assoc. apply last_last. }
  rewrite E3. change (code (byte 10) =? 10) with true. cbn iota.
  unfold read_header. unfold header_bytes. rewrite parse_header by auto. cbn iota.
  change (Z.of_nat (length (entries_of v)) =? 3) with true. cbn iota.
  change (entry "descr" (entries_of v)) with (Some (LStr (dtype_str (v_dtype v)))).
  change (entry "fortran_order" (entries_of v)) with (Some (LBool (v_fortran v))).
  change (entry "shape" (entries_of v)) with (Some (LTuple (v_shape v))). cbn iota.
  rewrite descr_round by auto. rewrite Hl, Z.eqb_refl. reflexivity.
Qed.
