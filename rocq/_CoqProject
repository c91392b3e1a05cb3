-Q theories Verif
theories/Base.v
theories/Tac.v
theories/Wire.v
theories/Utf8.v
theories/SpecText.v
theories/Text_proofs.v
theories/Cid.v
theories/Pb.v
theories/Dagpb.v
theories/SpecWire.v
theories/Wire_proofs.v
theories/Pb_proofs.v
theories/Codec_proofs.v
theories/Parse_safety.v
theories/Parsed.v
theories/Lax_proofs.v
theories/SpecOverflow.v
theories/Overflow_proofs.v
theories/Fuel_proofs.v
theories/SpecHang.v
theories/Hang_proofs.v
theories/Sha256.v
theories/Adder.v
theories/SpecAdder.v
theories/Adder_proofs.v
theories/Adder_thms.v
theories/SpecOrder.v
theories/Order_proofs.v
theories/Reader.v
theories/Visit.v
theories/SpecFile.v
theories/Visit_proofs.v
theories/Visit_thms.v
theories/Dir.v
theories/SpecDir.v
theories/Dir_proofs.v
theories/Builder.v
theories/SpecBuilder.v
theories/Paths_proofs.v
theories/Builder_proofs.v
theories/Builder_iter.v
theories/Builder_thms.v
theories/Builder_use.v
theories/Cumulative_proofs.v
theories/Walk.v
theories/SpecWalk.v
theories/Walk_proofs.v
theories/Walk_paths.v
theories/Walk_sim.v
theories/Walk_steps.v
theories/Walk_thms.v
theories/Walk_safe.v
theories/SpecFileSteps.v
theories/Steps_proofs.v
theories/SpecWalkSteps.v
theories/SpecWalkAstray.v
theories/Walk_exact.v
theories/Walk_astray.v
theories/SpecBuilt.v
theories/Built_proofs.v
theories/SpecLookupSteps.v
theories/Lookup_exact.v
theories/Examples_codec.v
theories/SpecCanon.v
theories/Canon_proofs.v
theories/Examples_file.v
theories/Examples_dir.v
theories/Examples_builder.v
theories/Examples_walk.v
theories/PropertiesCodec.v
theories/PropertiesNode.v
theories/PropertiesAdder.v
theories/PropertiesOrder.v
theories/AdderDebug.v
theories/PropertiesDebug.v
theories/Errors.v
theories/PropertiesErrors.v
theories/PropertiesFile.v
theories/PropertiesSteps.v
theories/PropertiesDir.v
theories/PropertiesLookupSteps.v
theories/PropertiesBuilder.v
theories/PropertiesWalk.v
theories/PropertiesTypes.v
theories/Programs.v
theories/SpecPrograms.v
theories/Listing_proofs.v
theories/Store_proofs.v
theories/Programs_proofs.v
theories/PropertiesPrograms.v
theories/PropertiesWalkSteps.v
theories/SpecRuns.v
theories/Runs_proofs.v
theories/PropertiesRuns.v
theories/SpecRunsAstray.v
theories/Runs_astray.v
theories/PropertiesAstray.v
theories/PropertiesBuilt.v
theories/PropertiesCanon.v
theories/PropertiesLax.v
theories/PropertiesHang.v
theories/SpecTrust.v
theories/Trust_proofs.v
theories/PropertiesTrust.v
theories/PropertiesText.v
theories/Ingest.v
theories/SpecIngest.v
theories/Ingest_proofs.v
theories/Ingest_tree.v
theories/Examples_ingest.v
theories/PropertiesIngest.v
theories/PropertiesCumulative.v
theories/Output.v
theories/SpecOutput.v
theories/Output_proofs.v
theories/Names_text_proofs.v
theories/PropertiesOutput.v
theories/Messages.v
theories/Messages_proofs.v
theories/SpecMessages.v
theories/PropertiesMessages.v
theories/SpecEnds.v
theories/Ends_proofs.v
theories/Ends_walk.v
theories/PropertiesEnds.v
theories/Stderr.v
theories/SpecStderr.v
theories/Stderr_proofs.v
theories/PropertiesStderr.v
theories/StderrAdd.v
theories/SpecStderrAdd.v
theories/PropertiesStderrAdd.v
theories/Causes.v
theories/PropertiesCauses.v
theories/Values.v
theories/SpecValues.v
theories/PropertiesValues.v
theories/Pushed_proofs.v
theories/PropertiesPushed.v
theories/FileTime.v
theories/FileTime_proofs.v
theories/PropertiesFileTime.v
theories/Reserve.v
theories/SpecReserve.v
theories/Reserve_proofs.v
theories/PropertiesReserve.v
theories/Golden.v
theories/Golden_fixtures.v
theories/Golden_dir.v
theories/Golden_builder.v
theories/Golden_walk.v
