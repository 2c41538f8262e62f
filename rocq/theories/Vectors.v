(** Test vectors of the repository, evaluated on the model.  These are tests, not proofs: they
    tie the re-specified primitives to what the Go tests expect. *)
From Verif Require Import Bytes Go Aes Gcm Kwp Kmac.

(** crypto/kwp_test.go:96-113 (Wycheproof vectors). *)
Example kwp_vec_0 :
  aes_kwp_wrap (hex "6f67486d1e914419cb43c28509c7c1ea") (hex "8dc0632d92ee0be4f740028410b08270") =
  Ok (hex "8cd63fa6788aa5edfa753fc87d645a672b14107c3b4519e7").
Proof. vm_compute. reflexivity. Qed.
Example kwp_vec_0_inv :
  aes_kwp_unwrap (hex "6f67486d1e914419cb43c28509c7c1ea") (hex "8cd63fa6788aa5edfa753fc87d645a672b14107c3b4519e7") =
  Ok (hex "8dc0632d92ee0be4f740028410b08270").
Proof. vm_compute. reflexivity. Qed.
Example kwp_vec_1 :
  aes_kwp_wrap (hex "fce0429c610658ef8e7cfb0154c51de2239a8a317f5af5b6714f985fb5c4d75c") (hex "287326b5ed0078e7ca0164d748f667e7") =
  Ok (hex "e3eab96d9a2fda12f9e252053aff15e753e5ea6f5172c92b").
Proof. vm_compute. reflexivity. Qed.
Example kwp_vec_1_inv :
  aes_kwp_unwrap (hex "fce0429c610658ef8e7cfb0154c51de2239a8a317f5af5b6714f985fb5c4d75c") (hex "e3eab96d9a2fda12f9e252053aff15e753e5ea6f5172c92b") =
  Ok (hex "287326b5ed0078e7ca0164d748f667e7").
Proof. vm_compute. reflexivity. Qed.
Example kwp_vec_2 :
  aes_kwp_wrap (hex "aa0ab9d68ed4a04e723f81b44c0c88d0bcde7a80cfd476eb4b8836d9aa01ec4c") (hex "57faa8766f6d6a0aa1cf643f857c150df5b31303b50af480e21c4b5e8c8a15d5") =
  Ok (hex "0e9e2e9aa34bbf973d67bc534ac86fc5b5a5f9da5f026866177894ec6077a5c84501510e1bf4afb3").
Proof. vm_compute. reflexivity. Qed.
Example kwp_vec_2_inv :
  aes_kwp_unwrap (hex "aa0ab9d68ed4a04e723f81b44c0c88d0bcde7a80cfd476eb4b8836d9aa01ec4c") (hex "0e9e2e9aa34bbf973d67bc534ac86fc5b5a5f9da5f026866177894ec6077a5c84501510e1bf4afb3") =
  Ok (hex "57faa8766f6d6a0aa1cf643f857c150df5b31303b50af480e21c4b5e8c8a15d5").
Proof. vm_compute. reflexivity. Qed.

(** crypto/aes_test.go:24-29. *)
Example gcm_vec :
  aes_gcm_encrypt (hex "d9313225f88406e5a55909c5aff5269a86a7a9531534f7da2e4c303d8a318a721c3c0c95956809532fcf0e2449a6b525b16aedf5aa0de657ba637b39")
    (hex "feedfacedeadbeeffeedfacedeadbeefabaddad2")
    (hex "feffe9928665731c6d6a8f9467308308feffe9928665731c6d6a8f9467308308")
    (hex "cafebabefacedbaddecaf888") =
  Ok (hex "522dc1f099567d07f47f37a32a84427d643a8cdcbfe5c0c97598a2bd2555d1aa8cb08e48590dbb3da7b08b1056828838c5f61e6393ba7a0abcc9f66276fc6ece0f4e1768cddf8853bb2d551bcafebabefacedbaddecaf888").
Proof. vm_compute. reflexivity. Qed.

(** crypto/kmac_test.go:22-66 (NIST vectors). *)
Example kmac_vec_0 :
  kmac128 (hex "404142434445464748494A4B4C4D4E4F505152535455565758595A5B5C5D5E5F") 32 (str "") (hex "00010203") =
  Ok (hex "E5780B0D3EA6F7D3A429C5706AA43A00FADBD7D49628839E3187243F456EE14E").
Proof. vm_compute. reflexivity. Qed.
Example kmac_vec_1 :
  kmac128 (hex "404142434445464748494A4B4C4D4E4F505152535455565758595A5B5C5D5E5F") 32 (str "My Tagged Application") (hex "00010203") =
  Ok (hex "3B1FBA963CD8B0B59E8C1A6D71888B7143651AF8BA0A7070C0979E2811324AA5").
Proof. vm_compute. reflexivity. Qed.
Example kmac_vec_2 :
  kmac128 (hex "404142434445464748494A4B4C4D4E4F505152535455565758595A5B5C5D5E5F") 32 (str "My Tagged Application") (hex "000102030405060708090A0B0C0D0E0F101112131415161718191A1B1C1D1E1F202122232425262728292A2B2C2D2E2F303132333435363738393A3B3C3D3E3F404142434445464748494A4B4C4D4E4F505152535455565758595A5B5C5D5E5F606162636465666768696A6B6C6D6E6F707172737475767778797A7B7C7D7E7F808182838485868788898A8B8C8D8E8F909192939495969798999A9B9C9D9E9FA0A1A2A3A4A5A6A7A8A9AAABACADAEAFB0B1B2B3B4B5B6B7B8B9BABBBCBDBEBFC0C1C2C3C4C5C6C7") =
  Ok (hex "1F5B4E6CCA02209E0DCB5CA635B89A15E271ECC760071DFD805FAA38F9729230").
Proof. vm_compute. reflexivity. Qed.
Example kmac_vec_3 :
  kmac256 (hex "404142434445464748494A4B4C4D4E4F505152535455565758595A5B5C5D5E5F") 64 (str "My Tagged Application") (hex "00010203") =
  Ok (hex "20C570C31346F703C9AC36C61C03CB64C3970D0CFC787E9B79599D273A68D2F7F69D4CC3DE9D104A351689F27CF6F5951F0103F33F4F24871024D9C27773A8DD").
Proof. vm_compute. reflexivity. Qed.
Example kmac_vec_4 :
  kmac256 (hex "404142434445464748494A4B4C4D4E4F505152535455565758595A5B5C5D5E5F") 64 (str "") (hex "000102030405060708090A0B0C0D0E0F101112131415161718191A1B1C1D1E1F202122232425262728292A2B2C2D2E2F303132333435363738393A3B3C3D3E3F404142434445464748494A4B4C4D4E4F505152535455565758595A5B5C5D5E5F606162636465666768696A6B6C6D6E6F707172737475767778797A7B7C7D7E7F808182838485868788898A8B8C8D8E8F909192939495969798999A9B9C9D9E9FA0A1A2A3A4A5A6A7A8A9AAABACADAEAFB0B1B2B3B4B5B6B7B8B9BABBBCBDBEBFC0C1C2C3C4C5C6C7") =
  Ok (hex "75358CF39E41494E949707927CEE0AF20A3FF553904C86B08F21CC414BCFD691589D27CF5E15369CBBFF8B9A4C2EB17800855D0235FF635DA82533EC6B759B69").
Proof. vm_compute. reflexivity. Qed.
Example kmac_vec_5 :
  kmac256 (hex "404142434445464748494A4B4C4D4E4F505152535455565758595A5B5C5D5E5F") 64 (str "My Tagged Application") (hex "000102030405060708090A0B0C0D0E0F101112131415161718191A1B1C1D1E1F202122232425262728292A2B2C2D2E2F303132333435363738393A3B3C3D3E3F404142434445464748494A4B4C4D4E4F505152535455565758595A5B5C5D5E5F606162636465666768696A6B6C6D6E6F707172737475767778797A7B7C7D7E7F808182838485868788898A8B8C8D8E8F909192939495969798999A9B9C9D9E9FA0A1A2A3A4A5A6A7A8A9AAABACADAEAFB0B1B2B3B4B5B6B7B8B9BABBBCBDBEBFC0C1C2C3C4C5C6C7") =
  Ok (hex "B58618F71F92E1D56C1B8C55DDD7CD188B97B4CA4D99831EB2699A837DA2E4D970FBACFDE50033AEA585F1A2708510C32D07880801BD182898FE476876FC8965").
Proof. vm_compute. reflexivity. Qed.

(** crypto/kmac_test.go:116-133. *)
Example kmac_example_1 :
  kmac256 (str "this is a secret key; you should generate a strong random key that's at least 32 bytes long")
    16 (str "Partition1") (str "The quick brown fox jumps over the lazy dog") =
  Ok (hex "3814d78758add078334b8ab9e5c4f942").
Proof. vm_compute. reflexivity. Qed.
Example kmac_example_2 :
  kmac256 (str "this is a secret key; you should generate a strong random key that's at least 32 bytes long")
    16 (str "Partition2") (str "The quick brown fox jumps over the lazy dog") =
  Ok (hex "3762371e99e1e01ab17742b95c0360da").
Proof. vm_compute. reflexivity. Qed.

(** crypto/kdf_test.go:26-48 (first vector). *)
Example kdf_vec_0 :
  kmackdf 64 (hex "404142434445464748494A4B4C4D4E4F505152535455565758595A5B5C5D5E5F")
    (str "My Tagged Application") [hex "00010203"] =
  Ok (hex "20C570C31346F703C9AC36C61C03CB64C3970D0CFC787E9B79599D273A68D2F7F69D4CC3DE9D104A351689F27CF6F5951F0103F33F4F24871024D9C27773A8DD").
Proof. vm_compute. reflexivity. Qed.
