(** C96: an image comes back from its encoding, and a data URL is read as what it says. *)
From Coq Require Import List Bool Arith.
From Verif Require Import ImgModel ImgSpec ImgProofs.
Import ListNotations.

(** Bytes are encoded as Base64 says and come back from any Base64 of them. *)
Theorem C96_encodes : forall bs, Forall byte bs -> base64 (enc64 bs) bs.
Proof. exact enc_ok. Qed.
Print Assumptions C96_encodes.
Theorem C96_decodes : forall s bs, base64 s bs -> b64decode s = Some bs.
Proof. exact b64decode_ok. Qed.
Print Assumptions C96_decodes.

(** Without padding and other characters just Base64 is read: nothing that was cut off. *)
Theorem C96_whole : forall s, (forall c, In c s -> exists v, digit c v) -> forall bs, dec64 0 0 0 s = Some bs <-> base64 s bs.
Proof. exact whole_groups. Qed.
Print Assumptions C96_whole.
Example C96_whole_example : dec64 0 0 0 [81; 81; 81; 81] = Some [65; 4; 16] /\ dec64 0 0 0 [81; 81; 81] = None /\ digit 81 16.
Proof. split; [reflexivity|]. split; [reflexivity|]. left. split; [apply Nat.ltb_lt; reflexivity|reflexivity]. Qed.

(** The URL made for an image has the bytes saved for it, and reading it back opens just those. *)
Theorem C96_roundtrip :
  forall img save open (i : img) url, (forall bs, save i = Some bs -> Forall byte bs) -> serialize img save i = Ok url ->
  exists bs, save i = Some bs /\ url_means url bs /\ validate img open url = match open bs with Some j => Ok j | None => Failed end.
Proof. exact serialize_ok. Qed.
Print Assumptions C96_roundtrip.

(** Any Base64 data URL of an image, of whatever kind *)
Theorem C96_reads :
  forall img open kind s bs, ~ In 44 kind -> base64 s bs ->
  validate img open (data_image ++ kind ++ semi_base64 ++ 44 :: s) = match open bs with Some i => Ok i | None => Failed end.
Proof. exact reads_base64. Qed.
Print Assumptions C96_reads.

(** What is read is a data URL of an image with one comma. *)
Theorem C96_refuses :
  forall img open url (i : img), validate img open url = Ok i ->
  exists kind s bs, url = data_image ++ kind ++ 44 :: s /\ ~ In 44 kind /\ ~ In 44 s /\ dec64 0 0 0 s = Some bs /\ open bs = Some i.
Proof. exact validate_inv. Qed.
Print Assumptions C96_refuses.

(** Images that are their bytes *)
Definition opened (bs : list nat) : option (list nat) := Some bs.
Example C96_example :
  Forall byte [137; 80; 78; 71; 255] /\ enc64 [137; 80; 78; 71; 255] = [105; 86; 66; 79; 82; 47; 56; 61] /\
  exists url, serialize (list nat) Some [137; 80; 78; 71; 255] = Ok url /\ validate (list nat) opened url = Ok [137; 80; 78; 71; 255] /\
  validate (list nat) opened (44 :: url) = ValueErr.
Proof.
  split; [unfold byte; repeat constructor; apply Nat.ltb_lt; reflexivity|]. split; [reflexivity|]. eexists. split; [reflexivity|]. split; vm_compute; reflexivity.
Qed.

(** *** What differs *)
(** A data URL without Base64 is read as if it had it: other bytes than it says. *)
Theorem C96_plain_refuted :
  exists url bs bs', url_means url bs /\ validate (list nat) opened url = Ok bs' /\ bs' <> bs.
Proof.
  exists (data_image ++ png ++ 44 :: [65; 65; 65; 65]), [65; 65; 65; 65], [0; 0; 0]. split; [|split; [reflexivity|discriminate]].
  apply um_plain.
  - unfold png. cbn [In]. intros H. repeat destruct H as [H|H]; try discriminate. exact H.
  - cbn [In]. intros H. repeat destruct H as [H|H]; try discriminate. exact H.
  - unfold byte. repeat constructor; apply Nat.ltb_lt; reflexivity.
  - intros k E. apply (f_equal (@length nat)) in E. rewrite app_length in E. unfold png, semi_base64 in E. cbn [length] in E. rewrite Nat.add_comm in E. discriminate E.
Qed.
Print Assumptions C96_plain_refuted.
(** Characters that are not Base64 are skipped. *)
Theorem C96_junk : forall s quad pads rest, dec64 quad pads rest s = dec64 quad pads rest (filter in_alphabet s).
Proof. exact junk. Qed.
Print Assumptions C96_junk.
(** So what is no Base64 is read, and what comes after padding is lost. *)
Theorem C96_junk_refuted : exists s bs, (forall bs', ~ base64 s bs') /\ b64decode s = Some bs.
Proof.
  exists [81; 36; 81; 61; 61], [65]. split; [|reflexivity]. intros bs' H.
  inversion H as [| |? ? ? ? ? ? ? ? A B D1 D2 D3 E|? ? ? ? ? ? ? ? ? ? ? ? ? A1 A2 A3 D1 D2 D3 D4 E T]; subst. destruct (digit_facts _ _ D4) as (F & _). discriminate F.
Qed.
Print Assumptions C96_junk_refuted.
Theorem C96_rest_refuted : exists s t bs, base64 s bs /\ base64 t bs /\ bs <> [] /\ b64decode (s ++ t) = Some bs.
Proof.
  exists [81; 81; 61; 61], [81; 81; 61; 61], [65]. assert (B : base64 [81; 81; 61; 61] [65]) by (apply (enc_ok [65]); unfold byte; repeat constructor; apply Nat.ltb_lt; reflexivity).
  split; [exact B|]. split; [exact B|]. split; [discriminate|reflexivity].
Qed.
Print Assumptions C96_rest_refuted.
