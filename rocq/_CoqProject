-Q theories Verif
theories/Py.v
theories/IndexTable_Model.v
theories/IndexTable_Spec.v
theories/IndexTable_Proofs.v
theories/IndexTable_Properties.v
theories/Float64_Model.v
theories/Float64_Proofs.v
theories/State_Model.v
theories/State_Spec.v
theories/State_Proofs.v
theories/State_Properties.v
theories/GQ.v
theories/Mat.v
theories/MatrixRepr_Model.v
theories/Fock_Spec.v
theories/Fock_Proofs.v
theories/MatrixRepr_Proofs.v
theories/MatrixRepr_Proofs2.v
theories/MatrixRepr_Properties.v
theories/Particle_Model.v
theories/Particle_Spec.v
theories/Particle_Proofs.v
theories/Particle_Proofs2.v
theories/Particle_Proofs3.v
theories/Particle_Properties.v
theories/Hilbert_Model.v
theories/Hilbert_Spec.v
theories/Hilbert_Proofs.v
theories/Hilbert_Proofs2.v
theories/Hilbert_Properties.v
theories/Spin_Model.v
theories/Spin_Spec.v
theories/Spin_Proofs.v
theories/Spin_Proofs2.v
theories/Spin_Proofs3.v
theories/Spin_Proofs4.v
theories/Spin_Proofs5.v
theories/Spin_Properties.v
theories/Schwinger_Properties.v
theories/CVec.v
theories/Averages_Model.v
theories/Averages_Spec.v
theories/Averages_Proofs.v
theories/Averages_Properties.v
theories/Lanczos_Model.v
theories/Lanczos_Spec.v
theories/Lanczos_Proofs.v
theories/Lanczos_Proofs2.v
theories/Lanczos_Properties.v
theories/LinSolve.v
theories/GF_Model.v
theories/GF_Spec.v
theories/GF_Proofs.v
theories/GF_Proofs2.v
theories/GF_Proofs3.v
theories/GF_Proofs4.v
theories/GF_Proofs5.v
theories/GF_Properties.v
theories/PandC_Model.v
theories/PandC_Spec.v
theories/PandC_Proofs.v
theories/PandC_Properties.v
theories/RunTimeEnv_Model.v
theories/RunTimeEnv_Spec.v
theories/RunTimeEnv_Proofs.v
theories/RunTimeEnv_Properties.v
theories/ColorPrint_Model.v
theories/ColorPrint_Spec.v
theories/ColorPrint_Proofs.v
theories/ColorPrint_Properties.v
theories/Bond_Model.v
theories/Bond_Spec.v
theories/Bond_Proofs.v
theories/Bond_Properties.v
theories/Line2D_Model.v
theories/Line2D_Spec.v
theories/Line2D_Proofs.v
theories/Line2D_Properties.v
theories/Polygon_Model.v
theories/Polygon_Spec.v
theories/Polygon_Proofs.v
theories/Polygon_Properties.v
theories/Rotation_Model.v
theories/Rotation_Spec.v
theories/Rotation_Proofs.v
theories/Rotation_Properties.v
theories/Lattice_Model.v
theories/Lattice_Spec.v
theories/Lattice_Proofs.v
theories/Lattice_Proofs2.v
theories/Lattice_Proofs3.v
theories/Lattice_Properties.v
theories/LatticeCases_Properties.v
theories/Neighbors_Spec.v
theories/Neighbors_Proofs.v
theories/Neighbors_Proofs2.v
theories/Neighbors_Properties.v
theories/NeighborsCases_Properties.v
theories/LatticeBonds_Spec.v
theories/LatticeBonds_Proofs.v
theories/LatticeBonds_Proofs2.v
theories/LatticeBonds_Properties.v
theories/LatticeBondsCases_Properties.v
theories/LatticeGen_Model.v
theories/LatticeGen_Spec.v
theories/LatticeGen_Proofs.v
theories/LatticeGen_Properties.v
theories/SpecialCluster_Spec.v
theories/SpecialCluster_Properties.v
theories/KPath_Model.v
theories/KPath_Spec.v
theories/KPath_Proofs.v
theories/KPath_Properties.v
theories/KPathFloat_Proofs.v
theories/KPathFloat_Properties.v
theories/SpecialShape_Properties.v
theories/Reciprocal_Model.v
theories/Reciprocal_Spec.v
theories/Reciprocal_Proofs.v
theories/Zone_Proofs.v
theories/BrillouinZone_Proofs.v
theories/Reciprocal_Properties.v
theories/StateCells_Proofs.v
theories/StateCells_Properties.v
theories/Draw_Model.v
theories/Draw_Spec.v
theories/Draw_Proofs.v
theories/DrawZone_Proofs.v
theories/Draw_Properties.v
theories/GFAnalytic_Spec.v
theories/GFAnalytic_Proofs.v
theories/GFAnalytic_Proofs2.v
theories/GFAnalytic_Properties.v
theories/Conserve_Spec.v
theories/Conserve_Proofs.v
theories/Conserve_Proofs2.v
theories/Conserve_Properties.v
theories/Text_Model.v
theories/Text_Spec.v
theories/Text_Proofs.v
theories/Text_Proofs2.v
theories/Text_Properties.v
theories/Free_Spec.v
theories/Free_Proofs.v
theories/Free_Proofs2.v
theories/Free_Proofs3.v
theories/Free_Proofs4.v
theories/Free_Proofs6.v
theories/Free_Proofs5.v
theories/Free_Proofs7.v
theories/Free_Properties.v
theories/Spectral_Proofs.v
theories/Spectrum_Spec.v
theories/Spectrum_Proofs.v
theories/Spectrum_Proofs2.v
theories/Spectrum_Proofs3.v
theories/Spectrum_Properties.v
theories/CPT_Model.v
theories/CPT_Spec.v
theories/CPT_Proofs.v
theories/CPT_Proofs2.v
theories/CPT_Proofs3.v
theories/CPT_Proofs4.v
theories/CPT_Proofs5.v
theories/CPT_Properties.v
theories/Particle3_Properties.v
theories/CPT_Proofs6.v
theories/Bloch_Spec.v
theories/Bloch_Proofs.v
theories/Bloch_Proofs2.v
theories/Bloch_Proofs3.v
theories/Bloch_Proofs4.v
theories/Bloch_Proofs5.v
theories/Bloch_Properties.v
theories/Bloch_Proofs6.v
theories/Bloch2_Properties.v
theories/Text2_Model.v
theories/Text2_Spec.v
theories/Text2_Proofs.v
theories/Text2_Properties.v
theories/Heisenberg_Model.v
theories/Heisenberg_Spec.v
theories/Heisenberg_Proofs.v
theories/Heisenberg_Proofs2.v
theories/Heisenberg_Proofs3.v
theories/Heisenberg_Proofs4.v
theories/Heisenberg_Proofs5.v
theories/Heisenberg_Proofs6.v
theories/Heisenberg_Proofs7.v
theories/Heisenberg_Properties.v
theories/Figures_Model.v
theories/Figures_Spec.v
theories/Figures_Proofs.v
theories/Figures_Proofs2.v
theories/Figures_Proofs3.v
theories/Figures_Properties.v
theories/Text3_Model.v
theories/Text3_Spec.v
theories/Text3_Proofs.v
theories/Text3_Properties.v
theories/LatticeRobust_Properties.v
theories/LatticeHex_Proofs.v
theories/LatticeNice_Properties.v
theories/LatticeNearest_Spec.v
theories/LatticeNearest_Properties.v
theories/LatticeNearest2_Properties.v
theories/LatticeThird_Properties.v
theories/LatticeChain_Properties.v
theories/Errors_Properties.v
theories/Bands_Spec.v
theories/Bands_Proofs.v
theories/Bands_Proofs2.v
theories/Bands_Proofs3.v
theories/Bands_Properties.v
theories/HeisenbergBonds_Spec.v
theories/HeisenbergBonds_Proofs.v
theories/HeisenbergBonds_Proofs2.v
theories/HeisenbergBonds_Properties.v
theories/SpinWave_Spec.v
theories/SpinWave_Proofs.v
theories/SpinWave_Proofs2.v
theories/SpinWave_Proofs3.v
theories/SpinWave_Proofs4.v
theories/SpinWave_Properties.v
theories/Errors2_Properties.v
theories/Averages2_Model.v
theories/Averages2_Spec.v
theories/Averages2_Properties.v
theories/ColorHex_Spec.v
theories/ColorHex_Properties.v
theories/LatticeRound_Properties.v
theories/LatticeUnstable_Properties.v
theories/LatticeSquare_Spec.v
theories/LatticeSquare_Properties.v
theories/Errors3_Properties.v
theories/LatticeExact_Spec.v
theories/LatticeExact_Properties.v
theories/LatticeLarge_Properties.v
theories/Text4_Model.v
theories/TextLayout_Spec.v
theories/TextLayout_Properties.v
theories/ColorMixed_Properties.v
theories/LatticeInstances_Properties.v
theories/KPathFloat2_Proofs.v
theories/KPathRound_Proofs.v
theories/KPathRound_Properties.v
theories/LineFloat_Model.v
theories/LineFloat_Spec.v
theories/LineFloat_Proofs.v
theories/LineFloat_Properties.v
theories/PolygonFloat_Model.v
theories/PolygonFloat_Properties.v
theories/LineFloat2_Properties.v
theories/LatticeZero_Properties.v
theories/BondFloat_Model.v
theories/BondFloat_Properties.v
theories/BondFloat2_Properties.v
theories/BondFloat3_Properties.v
theories/RotationPi_Proofs.v
theories/RotationFloat_Model.v
theories/RotationFloat_Spec.v
theories/RotationFloat_Proofs.v
theories/RotationFloat_Proofs2.v
theories/RotationFloat_Properties.v
theories/RotationFloat2_Properties.v
theories/RotationFloat3_Properties.v
theories/LinePoints_Model.v
theories/LinePoints_Properties.v
